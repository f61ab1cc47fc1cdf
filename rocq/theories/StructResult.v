(* What decoding into a struct leaves in its fields. *)

From Verif Require Import Base DetModel CtyModel HclModel HclSpec HclDecode.
From Verif Require Import GoType SpecModel CollectModel DetModel CtyModel HclModel TagModel
  TagSpec TagProofs StructModel StructScan StructParse StructSpec StructFields StructRun.
From Coq Require Import Lia.

(* ----- expressions ----- *)

Lemma expr_cty_means : forall e v, expr_cty e = Ok v -> means e v.
Proof.
  fix IH 1. intros e v H. destruct e as [z|dm dk|s|b| |f|x|l|m]; cbn [expr_cty] in H.
  - injection H as <-. constructor.
  - injection H as <-. constructor.
  - injection H as <-. constructor.
  - injection H as <-. constructor.
  - injection H as <-. constructor.
  - destruct (String.eqb_spec f "null") as [->|]; [|discriminate]. injection H as <-. constructor.
  - discriminate.
  - apply bindr_Ok in H as (u & H & E). injection E as <-. constructor.
    revert u H. induction l as [|e l IHl]; intros u H; [injection H as <-; constructor|].
    apply bindr_Ok in H as (x & Hx & H). apply bindr_Ok in H as (r & Hr & E). injection E as <-.
    constructor; [apply IH; exact Hx|apply IHl; exact Hr].
  - apply bindr_Ok in H as (u & H & E). injection E as <-. apply means_obj.
    revert u H. induction m as [|[k e] m IHm]; intros u H; [injection H as <-; constructor|].
    apply bindr_Ok in H as (x & Hx & H). apply bindr_Ok in H as (r & Hr & E). injection E as <-.
    constructor; [split; [reflexivity|apply IH; exact Hx]|apply IHm; exact Hr].
Qed.

Lemma file_attrs_In : forall its attrs, file_attrs its = Ok attrs ->
  (forall a, In a attrs -> exists e, In (PAttr (a_name a) e (a_eq a) (a_end a)) its /\ expr_cty e = Ok (a_value a)) /\
  (forall k e q z, In (PAttr k e q z) its -> exists x, expr_cty e = Ok x /\ In (mkAttr k x q z) attrs).
Proof.
  induction its as [|[k e q z|k ls o c b] its IH]; intros attrs H.
  - injection H as <-. split; [intros a []|intros k e q z []].
  - cbn [file_attrs] in H. apply bindr_Ok in H as (x & Hx & H). apply bindr_Ok in H as (r & Hr & H).
    injection H as <-. destruct (IH r Hr) as (A & B). split.
    + intros a [<-|I].
      * exists e. split; [left; reflexivity|exact Hx].
      * destruct (A a I) as (e' & I' & X). exists e'. split; [right; exact I'|exact X].
    + intros k' e' q' z' [I|I].
      * injection I as <- <- <- <-. exists x. split; [exact Hx|left; reflexivity].
      * destruct (B _ _ _ _ I) as (x' & X & I'). exists x'. split; [exact X|right; exact I'].
  - destruct (IH attrs H) as (A & B). split.
    + intros a I. destruct (A a I) as (e' & I' & X). exists e'. split; [right; exact I'|exact X].
    + intros k' e' q' z' [I|I]; [discriminate|]. exact (B _ _ _ _ I).
Qed.
Lemma file_attrs_names : forall its attrs, file_attrs its = Ok attrs -> map a_name attrs = pitem_names its.
Proof.
  induction its as [|[k e q z|k ls o c b] its IH]; intros attrs H.
  - injection H as <-. reflexivity.
  - cbn [file_attrs] in H. apply bindr_Ok in H as (x & Hx & H). apply bindr_Ok in H as (r & Hr & H).
    injection H as <-. cbn. f_equal. exact (IH r Hr).
  - exact (IH attrs H).
Qed.

(* ----- fuel for the fields ----- *)

Section Mono.
Variable E : env.
Variable type_string : gtype -> string.
Variable zero : gtype -> hval.
Notation loop_fields := (loop_fields E type_string zero).

Lemma loop_fields_mono : forall n nulls fs m ref L, loop_fields n nulls fs m ref = Ok L ->
  forall n', n <= n' -> loop_fields n' nulls fs m ref = Ok L.
Proof.
  induction n as [|n IHn]; intros nulls fs; [discriminate|].
  induction fs as [|f fs IH]; intros m ref L H n' Hn; (destruct n' as [|n']; [lia|]).
  - exact H.
  - rewrite loop_fields_cons in H |- *. apply bindr_Ok in H as (here & H1 & H).
    apply bindr_Ok in H as (rest & H2 & H). injection H as <-.
    assert (H1' : loop_field E type_string zero n' nulls f m ref = Ok here).
    { unfold loop_field in H1 |- *. destruct (negb (is_exported (fname f))); [exact H1|].
      destruct (tag2 (ftag f)) as [[tag what]| |]; cbn [bindr] in H1 |- *; try discriminate.
      destruct (grep nulls tag); [exact H1|].
      destruct (String.eqb (to_lower what) "label"); [exact H1|].
      destruct (tag_skipped tag); [exact H1|].
      destruct (lookup (fname f) m); [exact H1|].
      destruct (String.eqb tag ""); [|exact H1].
      destruct (under E (elem_ptr E (ftype f))); try exact H1. apply (IHn _ _ _ _ _ H1). lia. }
    rewrite H1'. cbn [bindr]. rewrite (IH _ _ _ H2 (S n') Hn). reflexivity.
Qed.

Lemma loop_fields_spec : forall n nulls specs fs l m ref L, loop_fields n nulls fs m ref = Ok L ->
  all_fields E nulls specs fs l -> keys_agree specs l m -> NoDup (field_names l) ->
  classified nulls specs fs l m L.
Proof.
  intros n nulls specs fs l m ref L H A K ND.
  destruct (loop_fields_classes E type_string zero _ _ _ _ A) as (n0 & G).
  destruct (G (n0 + n) ltac:(lia) m ref K ND) as (L' & H' & C).
  rewrite (loop_fields_mono _ _ _ _ _ _ H (n0 + n) ltac:(lia)) in H'. injection H' as ->. exact C.
Qed.
End Mono.

(* ----- the parts of the body ----- *)

Definition plain_attr (nulls : list string) (L : lists) (k : string) : bool :=
  negb (grep nulls k || tag_in (l_dec L) k || tag_in (l_labels L) k || tag_in (l_ori L) k).
Definition label_attr (nulls : list string) (L : lists) (k : string) : bool :=
  negb (grep nulls k || tag_in (l_dec L) k) && tag_in (l_labels L) k.
Definition dec_attr (nulls : list string) (L : lists) (k : string) : bool :=
  negb (grep nulls k) && tag_in (l_dec L) k.
Definition block_attr (nulls : list string) (L : lists) (k : string) : bool :=
  negb (grep nulls k || tag_in (l_dec L) k || tag_in (l_labels L) k) && tag_in (l_ori L) k.

Lemma split_attrs_parts : forall dat nulls L attrs p, split_attrs dat nulls L attrs = Ok p ->
  p_plain p = map (fun a => (a_name a, a_value a)) (filter (fun a => plain_attr nulls L (a_name a)) attrs) /\
  p_labels p = map (fun a => (a_name a, a_value a)) (filter (fun a => label_attr nulls L (a_name a)) attrs) /\
  p_decattrs p = map (fun a => (a_name a, a)) (filter (fun a => dec_attr nulls L (a_name a)) attrs) /\
  exists bss, Forall2 (fun a bs => attr_blocks dat a = Ok bs) (filter (fun a => block_attr nulls L (a_name a)) attrs) bss
    /\ p_ori p = concat bss.
Proof.
  intros dat nulls L. induction attrs as [|a attrs IH]; intros p H.
  - injection H as <-. repeat split. exists []. split; [constructor|reflexivity].
  - cbn [split_attrs] in H. apply bindr_Ok in H as (q & Hq & H).
    destruct (IH q Hq) as (I1 & I2 & I3 & bss & I4 & I5).
    cbn [filter]. unfold plain_attr at 1, label_attr at 1, dec_attr at 1, block_attr at 1.
    destruct (grep nulls (a_name a)) eqn:Gn.
    { injection H as <-. cbn. repeat split; eauto. }
    destruct (tag_in (l_dec L) (a_name a)) eqn:Td.
    { injection H as <-. cbn. rewrite I1, I2, I3. repeat split; eauto. }
    destruct (tag_in (l_labels L) (a_name a)) eqn:Tl.
    { injection H as <-. cbn. rewrite I1, I2, I3. repeat split; eauto. }
    destruct (tag_in (l_ori L) (a_name a)) eqn:To.
    { apply bindr_Ok in H as (bs & Hb & H). injection H as <-. cbn. rewrite I1, I2, I3. repeat split; eauto.
      exists (bs :: bss). split; [constructor; assumption|]. cbn. rewrite I5. reflexivity. }
    injection H as <-. cbn. rewrite I1, I2, I3. repeat split; eauto.
Qed.

Section Result.
Variable E : env.
Variable depth : nat.
Variable type_string : gtype -> string.
Variable zero : gtype -> hval.
Variable assignable : gtype -> gtype -> bool.
Variable decode_attr : gtype -> cval -> result hval.
Variable hook : gtype -> option (string -> list string -> hval -> hval * result unit).

Notation unmarshal_with := (unmarshal_with E depth type_string zero assignable decode_attr hook).
Notation find_field := (find_field E depth).

Definition null_names (attrs : list hattr) : list string :=
  map a_name (filter (fun a => is_null (a_value a)) attrs).

Lemma unmarshal_inv : forall dec m ref labels t v dat v' ref' u,
  unmarshal_with dec m ref labels t v dat = (v', ref', Ok u) ->
  exists fs its attrs L p raw, under E t = TStruct fs /\ parse_file dat = Ok its /\ file_attrs its = Ok attrs /\
    loop_fields E type_string zero depth (null_names attrs) fs m ref = Ok L /\
    split_body dat (null_names attrs) L attrs (file_blocks its) = Ok p /\
    gohcl_decode zero decode_attr (l_new L) (p_plain p) (p_rest p) = Ok raw /\
    run E depth assignable t (label_attr_actions p (l_labels L) ++ label_arg_actions E depth t labels (l_labels L)
       ++ plain_actions p (l_new L) raw ++ generic_actions E dat p (l_dec L)
       ++ block_actions E depth zero assignable hook dec dat t (l_map L) p (l_ori L))%list v (l_ref L)
    = (v', ref', Ok u).
Proof.
  intros dec m ref labels t v dat v' ref' u H. unfold StructModel.unmarshal_with in H.
  destruct (under E t) as [| | | | |fs| |] eqn:U; try discriminate.
  destruct (parse_file dat) as [its| |] eqn:P; try discriminate. cbn [bindr] in H.
  destruct (file_attrs its) as [attrs| |] eqn:A; try discriminate. cbn [bindr] in H.
  fold (null_names attrs) in H.
  destruct (loop_fields E type_string zero depth (null_names attrs) fs m ref) as [L| |] eqn:Lf; try discriminate.
  destruct (split_body dat (null_names attrs) L attrs (file_blocks its)) as [p| |] eqn:S; try discriminate.
  cbn [bindr] in H.
  destruct (gohcl_decode zero decode_attr (l_new L) (p_plain p) (p_rest p)) as [raw| |] eqn:G; try discriminate.
  cbn [bindr] in H. exists fs, its, attrs, L, p, raw. auto 10.
Qed.

(* All lists together. *)
Definition all_lists (L : lists) : list gfield := (l_labels L ++ l_new L ++ l_dec L ++ l_ori L)%list.

Lemma action_names : forall dec dat t m p raw L labels,
  List.length raw = List.length (l_new L) ->
  (forall n, In n (map fst (label_attr_actions p (l_labels L))) <-> In n (map fname (l_labels L))) /\
  (forall n, In n (map fst (label_arg_actions E depth t labels (l_labels L))) -> In n (map fname (l_labels L))) /\
  map fst (plain_actions p (l_new L) raw) = map fname (l_new L) /\
  map fst (generic_actions E dat p (l_dec L)) = map fname (l_dec L) /\
  map fst (block_actions E depth zero assignable hook dec dat t m p (l_ori L)) = map fname (l_ori L).
Proof.
  intros dec dat t m p raw L labels Hl. split; [|split; [|split; [|split]]].
  - intro n. unfold label_attr_actions. rewrite map_map. reflexivity.
  - intros n I. unfold label_arg_actions in I. destruct (Nat.eqb _ _); [|contradiction].
    rewrite map_map in I. apply in_map_iff in I as ([f s] & <- & I). apply in_combine_l in I.
    exact (List.in_map fname _ _ I).
  - unfold plain_actions. rewrite map_map.
    revert raw Hl. induction (l_new L) as [|f fs IH]; intros [|x raw] Hl; try discriminate; [reflexivity|].
    cbn. f_equal. apply IH. cbn in Hl. lia.
  - unfold generic_actions. rewrite map_map. reflexivity.
  - unfold block_actions. rewrite map_map. reflexivity.
Qed.

Lemma gohcl_values_len : forall fs attrs raw, gohcl_values zero decode_attr fs attrs = Ok raw ->
  List.length raw = List.length fs.
Proof.
  induction fs as [|f fs IH]; intros attrs raw H; [injection H as <-; reflexivity|].
  cbn [gohcl_values] in H. apply bindr_Ok in H as (x & _ & H). apply bindr_Ok in H as (r & Hr & H).
  injection H as <-. cbn. f_equal. exact (IH _ _ Hr).
Qed.
Lemma gohcl_decode_inv : forall fs attrs rest raw, gohcl_decode zero decode_attr fs attrs rest = Ok raw ->
  rest = [] /\ gohcl_values zero decode_attr fs attrs = Ok raw /\ (forall k v, In (k, v) attrs -> tag_in fs k = true).
Proof.
  intros fs attrs rest raw H. unfold gohcl_decode in H. destruct (has_dup _); [discriminate|].
  destruct (negb (forallb _ fs)); [discriminate|].
  destruct (existsb _ attrs) eqn:X; [discriminate|]. destruct rest; [|discriminate].
  split; [reflexivity|]. split; [exact H|]. intros k v I.
  destruct (tag_in fs k) eqn:T; [reflexivity|].
  assert (existsb (fun kv : string * cval => negb (tag_in fs (fst kv))) attrs = true).
  { apply existsb_exists. exists (k, v). cbn. rewrite T. auto. }
  congruence.
Qed.
Lemma gohcl_values_In : forall fs attrs raw f x, gohcl_values zero decode_attr fs attrs = Ok raw ->
  NoDup (map tag_of fs) -> In (f, x) (combine fs raw) ->
  match lookup (tag_of f) attrs with
  | Some v => decode_attr (ftype f) v = Ok x
  | None => required f = false /\ x = zero (ftype f)
  end.
Proof.
  induction fs as [|g fs IH]; intros attrs raw f x H ND I; [destruct raw; contradiction|].
  cbn [gohcl_values] in H. apply bindr_Ok in H as (y & Hy & H). apply bindr_Ok in H as (r & Hr & H).
  injection H as <-. inversion ND as [|? ? NI ND']; subst. destruct I as [I|I].
  - injection I as <- <-.
    assert (T : tag_in fs (tag_of g) = false).
    { unfold tag_in. destruct (existsb _ fs) eqn:X; [|reflexivity]. exfalso. apply NI.
      apply existsb_exists in X as (h & J & X). apply String.eqb_eq in X. rewrite <- X. exact (List.in_map tag_of _ _ J). }
    rewrite T in Hy. destruct (lookup (tag_of g) attrs); [exact Hy|].
    destruct (required g); [discriminate|]. injection Hy as <-. auto.
  - exact (IH _ _ _ _ Hr ND' I).
Qed.


(* ----- from the lists back to the classes ----- *)

Lemma lookup_filter_name : forall A (P : string -> bool) (g : hattr -> A) k attrs,
  lookup k (map (fun a => (a_name a, g a)) (filter (fun a => P (a_name a)) attrs))
  = if P k then lookup k (map (fun a => (a_name a, g a)) attrs) else None.
Proof.
  intros A P g k. induction attrs as [|a attrs IH]; [destruct (P k); reflexivity|]. cbn [filter].
  destruct (P (a_name a)) eqn:Pa; cbn [map lookup].
  - destruct (eq_dec k (a_name a)) as [->|N]; [rewrite Pa; reflexivity|exact IH].
  - rewrite IH. destruct (eq_dec k (a_name a)) as [->|N]; [rewrite Pa; reflexivity|reflexivity].
Qed.

Lemma of_class_In : forall f c l, In f (of_class c l) <-> In (f, c) l.
Proof.
  intros f c l. unfold of_class. rewrite in_map_iff. split.
  - intros ([g d] & <- & I). apply filter_In in I as (I & H). cbn in H |- *.
    destruct (cls_eq_dec d c) as [->|]; [exact I|discriminate].
  - intro I. exists (f, c). split; [reflexivity|]. apply filter_In. split; [exact I|]. cbn.
    destruct (cls_eq_dec c c); [reflexivity|contradiction].
Qed.

Lemma tag_in_spec : forall fs k, tag_in fs k = true <-> exists f, In f fs /\ tag_of f = k.
Proof.
  intros fs k. unfold tag_in. rewrite existsb_exists. split.
  - intros (f & I & H). apply String.eqb_eq in H. eauto.
  - intros (f & I & H). exists f. split; [exact I|]. apply String.eqb_eq. exact H.
Qed.
Lemma tag_of_tag2 : forall f tag kind, tag2 (ftag f) = Ok (tag, kind) -> tag_of f = tag.
Proof. intros f tag kind H. unfold tag_of. rewrite H. reflexivity. Qed.

Lemma class_tag : forall nulls specs f c, class_of E nulls specs f c ->
  exists tag kind, tag2 (ftag f) = Ok (tag, kind) /\ (claimed c = true -> ~ In tag nulls).
Proof.
  intros nulls specs f c C. destruct C; eexists _, _; (split; [eassumption|]); cbn; try discriminate; auto.
Qed.

Lemma all_fields_class : forall nulls specs fs l, all_fields E nulls specs fs l ->
  forall f c, In (f, c) l -> class_of E nulls specs f c.
Proof.
  induction 1 as [|f fs l X H IH|f c fs l X C NI H IH|f t gs fs l l' X C P U H1 IH1 H2 IH2]; intros g d I.
  - contradiction.
  - exact (IH g d I).
  - destruct I as [I|I]; [injection I as <- <-; exact C|exact (IH g d I)].
  - destruct I as [I|I]; [injection I as <- <-; exact C|].
    apply in_app_or in I as [I|I]; [exact (IH1 g d I)|exact (IH2 g d I)].
Qed.

Lemma class_of_ext : forall nulls nulls' specs f c, (forall k, In k nulls <-> In k nulls') ->
  class_of E nulls specs f c -> class_of E nulls' specs f c.
Proof.
  intros nulls nulls' specs f c X C.
  destruct C as [tag kind T N|tag kind T N Lb|kind T N Lb|tag kind T N Lb D S|tag kind t T N Lb D S Em P B
    |tag kind t T N Lb D S Em P B|tag kind t T N Lb D S Em P B G|kind t T N Lb S P B|kind t T N Lb S P B];
    rewrite X in N.
  - eapply class_null; eassumption.
  - eapply class_label; eassumption.
  - eapply class_dash; eassumption.
  - eapply class_spec; eassumption.
  - eapply class_block; eassumption.
  - eapply class_generic; eassumption.
  - eapply class_attr; eassumption.
  - eapply class_inlined; eassumption.
  - eapply class_untagged; eassumption.
Qed.
Lemma all_fields_ext : forall nulls nulls' specs fs l, (forall k, In k nulls <-> In k nulls') ->
  all_fields E nulls specs fs l -> all_fields E nulls' specs fs l.
Proof.
  intros nulls nulls' specs fs l X.
  induction 1 as [|f fs l Ex H IH|f c fs l Ex C NI H IH|f t gs fs l l' Ex C P U H1 IH1 H2 IH2].
  - constructor.
  - apply af_hidden; assumption.
  - apply af_field; try assumption. exact (class_of_ext _ _ _ _ _ X C).
  - apply af_inlined with t gs; try assumption. exact (class_of_ext _ _ _ _ _ X C).
Qed.

Lemma erase_attr : forall its k e, In (IAttr k e) (map erase its) <-> exists q z, In (PAttr k e q z) its.
Proof.
  intros its k e. rewrite in_map_iff. split.
  - intros ([k' e' q z|k' ls o c b] & H & I); [|discriminate]. injection H as -> ->. eauto.
  - intros (q & z & I). exists (PAttr k e q z). auto.
Qed.


Section One.
Variable dec : decoder.
Variable m : list (string * svalue).
Variables ref ref' : hrefmap.
Variable labels : list string.
Variable t : gtype.
Variables v v' : hval.
Variable dat : string.
Variable u : unit.
Variable fs : list gfield.
Variable body : list item.
Variable nulls : list string.
Variable l : list (gfield * cls).
Hypothesis U : under E t = TStruct fs.
Hypothesis B : parse_config dat = Ok body.
Hypothesis N : forall k, In k nulls <-> null_in body k.
Hypothesis A : all_fields E nulls (keys m) fs l.
Hypothesis ND : NoDup (field_names l).
Hypothesis NT : distinct_tags l.

Lemma decoded_inv : unmarshal_with dec m ref labels t v dat = (v', ref', Ok u) ->
  exists its attrs L p raw, parse_file dat = Ok its /\ body = map erase its /\ file_attrs its = Ok attrs /\
    NoDup (map a_name attrs) /\ (forall k, In k nulls <-> In k (null_names attrs)) /\
    loop_fields E type_string zero depth (null_names attrs) fs m ref = Ok L /\ classified nulls (keys m) fs l m L /\
    split_body dat (null_names attrs) L attrs (file_blocks its) = Ok p /\
    gohcl_decode zero decode_attr (l_new L) (p_plain p) (p_rest p) = Ok raw /\
    run E depth assignable t (label_attr_actions p (l_labels L) ++ label_arg_actions E depth t labels (l_labels L)
       ++ plain_actions p (l_new L) raw ++ generic_actions E dat p (l_dec L)
       ++ block_actions E depth zero assignable hook dec dat t (l_map L) p (l_ori L))%list v (l_ref L)
    = (v', ref', Ok u).
Proof.
  intro H. apply unmarshal_inv in H as (fs' & its & attrs & L & p & raw & U' & P & FA & LF & S & G & R).
  assert (fs' = fs) by congruence. subst fs'.
  pose proof (file_sound _ _ P) as P'. rewrite B in P'. injection P' as ->.
  assert (NN : forall k, In k nulls <-> In k (null_names attrs)).
  { intro k. rewrite N. unfold null_names. destruct (file_attrs_In _ _ FA) as (F1 & F2). split.
    - intros (e & I & M). apply erase_attr in I as (q & z & I).
      destruct (F2 _ _ _ _ I) as (x & X & J). apply in_map_iff. exists (mkAttr k x q z).
      split; [reflexivity|]. apply filter_In. split; [exact J|]. cbn.
      assert (x = CNull) by (inversion M; subst; cbn in X; congruence). subst x. reflexivity.
    - intro I. apply in_map_iff in I as (a & <- & I). apply filter_In in I as (I & Z).
      destruct (F1 a I) as (e & J & X). exists e. split; [apply erase_attr; eauto|].
      destruct (a_value a) eqn:V; try discriminate. apply expr_cty_means. exact X. }
  exists its, attrs, L, p, raw. split; [exact P|]. split; [reflexivity|]. split; [exact FA|].
  split.
  { rewrite (file_attrs_names _ _ FA). apply has_dup_false.
    unfold parse_file in P. apply bindr_Ok in P as (ts & _ & P). apply bindr_Ok in P as (its' & _ & P).
    destruct (has_dup (pitem_names its')) eqn:D; [discriminate|]. injection P as ->. exact D. }
  split; [exact NN|]. split; [exact LF|]. split; [|auto].
  apply (all_fields_ext _ _ _ _ _ NN) in A.
  eapply loop_fields_spec in LF; [|exact A| |exact ND].
  - destruct LF as (C1 & C2 & C3 & C4 & C5). repeat split; assumption.
  - intros f c _. unfold keys. split.
    + intros I K. apply lookup_None in K. exact (K I).
    + intro K. destruct (lookup (fname f) m) as [x|] eqn:LK; [|congruence]. apply lookup_Some_key. eauto.
Qed.

(* The tag of a field that the text may set belongs to no other list. *)
Lemma tag_only : forall f c d, In (f, c) l -> claimed c = true -> claimed d = true -> c <> d ->
  tag_in (of_class d l) (tag_of f) = false.
Proof.
  intros f c d I C D X. destruct (tag_in (of_class d l) (tag_of f)) eqn:T; [|reflexivity]. exfalso.
  apply tag_in_spec in T as (g & J & T). apply of_class_In in J.
  destruct (class_tag _ _ _ _ (all_fields_class _ _ _ _ A _ _ I)) as (tf & kf & Tf & _).
  destruct (class_tag _ _ _ _ (all_fields_class _ _ _ _ A _ _ J)) as (tg & kg & Tg & _).
  rewrite (tag_of_tag2 _ _ _ Tf), (tag_of_tag2 _ _ _ Tg) in T. subst tg.
  destruct (NT _ _ _ _ _ _ _ I J C D Tf Tg) as (_ & E'). contradiction.
Qed.
Lemma tag_own : forall f c, In (f, c) l -> tag_in (of_class c l) (tag_of f) = true.
Proof. intros f c I. apply tag_in_spec. exists f. split; [apply of_class_In; exact I|reflexivity]. Qed.
Lemma tag_null : forall f c attrs, (forall k, In k nulls <-> In k (null_names attrs)) -> In (f, c) l ->
  claimed c = true -> grep (null_names attrs) (tag_of f) = false.
Proof.
  intros f c attrs NN I C. apply grep_false. rewrite <- NN.
  destruct (class_tag _ _ _ _ (all_fields_class _ _ _ _ A _ _ I)) as (tf & kf & Tf & H).
  rewrite (tag_of_tag2 _ _ _ Tf). exact (H C).
Qed.
Lemma class_names : forall c, NoDup (map fname (of_class c l)).
Proof.
  intro c. unfold of_class. rewrite map_map. clear -ND. unfold field_names in ND.
  induction l as [|[f d] l' IH]; [constructor|]. cbn in ND. inversion ND as [|? ? NI ND']; subst.
  cbn. destruct (cls_eq_dec d c); [|exact (IH ND')]. cbn. constructor; [|exact (IH ND')].
  intro I. apply NI. apply in_map_iff in I as (x & <- & I). apply filter_In in I as (I & _).
  apply in_map_iff. eauto.
Qed.
Lemma names_apart : forall c d f, In (f, c) l -> c <> d -> ~ In (fname f) (map fname (of_class d l)).
Proof.
  intros c d f I X J. apply in_map_iff in J as (g & EQ & J). apply of_class_In in J.
  clear -ND I J X EQ. unfold field_names in ND. induction l as [|[h e] l' IH]; [contradiction|].
  cbn in ND. inversion ND as [|? ? NI ND']; subst. destruct I as [I|I], J as [J|J].
  - congruence.
  - injection I as -> ->. apply NI. rewrite <- EQ. apply (List.in_map (fun fc => fname (fst fc)) _ (g, d) J).
  - injection J as -> ->. apply NI. rewrite EQ. apply (List.in_map (fun fc => fname (fst fc)) _ (f, c) I).
  - exact (IH ND' I J).
Qed.
Lemma class_tags : forall c, claimed c = true -> NoDup (map tag_of (of_class c l)).
Proof.
  intros c C.
  assert (G : forall fs', (forall f, In f fs' -> In (f, c) l) -> NoDup (map fname fs') -> NoDup (map tag_of fs')).
  { induction fs' as [|f fs' IH]; intros I D; [constructor|]. cbn in D |- *. inversion D as [|? ? NI D']; subst.
    constructor; [|apply IH; [intros g J; apply I; right; exact J|exact D']].
    intro J. apply in_map_iff in J as (g & T & J). apply NI.
    assert (If := I f (or_introl eq_refl)). assert (Ig := I g (or_intror J)).
    destruct (class_tag _ _ _ _ (all_fields_class _ _ _ _ A _ _ If)) as (tf & kf & Tf & _).
    destruct (class_tag _ _ _ _ (all_fields_class _ _ _ _ A _ _ Ig)) as (tg & kg & Tg & _).
    rewrite (tag_of_tag2 _ _ _ Tf), (tag_of_tag2 _ _ _ Tg) in T. subst tg.
    destruct (NT _ _ _ _ _ _ _ If Ig C C Tf Tg) as (-> & _). exact (List.in_map fname _ _ J). }
  apply G; [|apply class_names]. intros f I. apply of_class_In. exact I.
Qed.

(* The attribute a tag names, as a lookup. *)
Lemma lookup_attr : forall X (g : hattr -> X) its attrs k, file_attrs its = Ok attrs -> NoDup (map a_name attrs) ->
  (exists a e, lookup k (map (fun a => (a_name a, g a)) attrs) = Some (g a) /\ a_name a = k /\
     In (PAttr k e (a_eq a) (a_end a)) its /\ means e (a_value a))
  \/ (lookup k (map (fun a => (a_name a, g a)) attrs) = None /\ forall e, ~ In (IAttr k e) (map erase its)).
Proof.
  intros X g its attrs k FA D. destruct (file_attrs_In _ _ FA) as (F1 & F2).
  destruct (lookup k (map (fun a => (a_name a, g a)) attrs)) as [y|] eqn:LK.
  - left. apply lookup_In in LK. apply in_map_iff in LK as (a & H & I). injection H as <- <-.
    destruct (F1 a I) as (e & J & M). exists a, e. repeat split; auto. apply expr_cty_means. exact M.
  - right. split; [reflexivity|]. intros e I. apply erase_attr in I as (q & z & I).
    destruct (F2 _ _ _ _ I) as (x & _ & J). apply lookup_None in LK. apply LK.
    unfold keys. rewrite map_map. cbn. exact (List.in_map a_name _ _ J).
Qed.

Theorem attr_field : forall f tag kind path ft, unmarshal_with dec m ref labels t v dat = (v', ref', Ok u) ->
  In (f, Attr) l -> tag2 (ftag f) = Ok (tag, kind) -> find_field t (fname f) = Some (path, ft) ->
  (exists e x, In (IAttr tag e) body /\ means e x /\ decode_attr (ftype f) x = Ok (hget v' path))
  \/ ((forall e, ~ In (IAttr tag e) body) /\ kind = "optional" /\ hget v' path = hget v path).
Proof.
  intros f tag kind path ft H I T F.
  apply decoded_inv in H as (its & attrs & L & p & raw & P & -> & FA & D & NN & LF & C & S & G & R).
  destruct C as (C1 & C2 & C3 & C4 & _).
  unfold split_body in S. apply bindr_Ok in S as (q & S & X). injection X as <-.
  apply split_attrs_parts in S as (S1 & S2 & S3 & _).
  cbn [p_plain p_rest] in G. apply gohcl_decode_inv in G as (_ & G & _).
  pose proof (gohcl_values_len _ _ _ G) as Len.
  assert (PA : plain_attr (null_names attrs) L tag = true).
  { unfold plain_attr. rewrite <- (tag_of_tag2 _ _ _ T), C1, C3, C4.
    rewrite (tag_null _ _ _ NN I eq_refl), !(tag_only _ _ _ I eq_refl) by (reflexivity || discriminate). reflexivity. }
  assert (LK : lookup tag (p_plain q) = lookup tag (map (fun a => (a_name a, a_value a)) attrs)).
  { rewrite S1, (lookup_filter_name _ (plain_attr (null_names attrs) L)), PA. reflexivity. }
  assert (If : In f (l_new L)) by (rewrite C2; apply of_class_In; exact I).
  assert (Ix : exists x, In (f, x) (combine (l_new L) raw)).
  { clear -If Len. revert raw Len. induction (l_new L) as [|g gs IH]; intros [|x raw] Len; try discriminate; [contradiction|].
    destruct If as [->|If]; [exists x; left; reflexivity|]. cbn in Len.
    destruct (IH If raw) as (y & J); [lia|]. exists y. right. exact J. }
  destruct Ix as (x & Ix). pose proof Ix as Ix'. apply in_split in Ix' as (c1 & c2 & Ec).
  assert (Nm : map (fun fx => fname (fst fx)) (combine (l_new L) raw) = map fname (l_new L)).
  { clear -Len. revert raw Len. induction (l_new L) as [|g gs IH]; intros [|y raw] Len; try discriminate; [reflexivity|].
    cbn in *. rewrite IH by lia. reflexivity. }
  match type of R with run _ _ _ _ (label_attr_actions ?p _ ++ _)%list _ _ = _ => set (pp := p) in R end.
  assert (NB : NoDup (map fname (l_new L))) by (rewrite C2; apply class_names).
  rewrite <- Nm, Ec, map_app in NB. cbn [map fst] in NB.
  unfold plain_actions in R. rewrite Ec in R. rewrite map_app in R. cbn [map fst snd] in R.
  match type of R with run _ _ _ _ ?acts _ _ = _ => match acts with
    (?a ++ ?b ++ (?c ++ ?d :: ?e) ++ ?x)%list =>
    replace acts with (((a ++ b) ++ c) ++ d :: (e ++ x))%list in R by (rewrite <- !app_assoc; reflexivity) end end.
  assert (NL : ~ In (fname f) (map fname (l_labels L))) by (rewrite C1; apply (names_apart _ _ _ I); discriminate).
  destruct (action_names dec dat t (l_map L) pp raw L labels Len) as (N1 & N2 & _ & N4 & N5).
  apply run_value with (p := path) (ft := ft) in R as (v1 & r1 & r2 & R1 & R2).
  - apply run_before with (name := fname f) (p := path) (ft := ft) in R1; [| |exact F].
    + unfold pure in R2. cbn [p_plain pp] in R2. rewrite (tag_of_tag2 _ _ _ T), LK in R2.
      assert (NTg : NoDup (map tag_of (l_new L))) by (rewrite C2; apply class_tags; reflexivity).
      pose proof (gohcl_values_In _ _ _ _ _ G NTg Ix) as GV. rewrite (tag_of_tag2 _ _ _ T) in GV. rewrite LK in GV.
      destruct (lookup_attr _ a_value its attrs tag FA D) as [(a & e & L1 & Na & J & M)|(L1 & Z)]; rewrite L1 in R2, GV.
      * left. destruct R2 as [(R2 & _)|(xt & y & R2 & _ & V)]; [discriminate|].
        injection R2 as _ <- <-. exists e, (a_value a). split; [apply erase_attr; eauto|]. split; [exact M|].
        rewrite V. exact GV.
      * right. split; [exact Z|]. destruct GV as (Rq & _). unfold required, kind_of_tag in Rq. rewrite T in Rq.
        split; [destruct (String.eqb_spec kind "optional"); [assumption|discriminate]|].
        destruct R2 as [(_ & V)|(xt & y & R2 & _)]; [congruence|discriminate].
    + rewrite !map_app. intro J. apply in_app_or in J as [J|J]; [apply in_app_or in J as [J|J]|].
      * apply NL. apply N1. exact J.
      * apply NL. apply N2. exact J.
      * rewrite map_map in J. apply NoDup_remove_2 in NB. apply NB. apply in_or_app. left. exact J.
  - rewrite !map_app. intro J. apply in_app_or in J as [J|J].
    + rewrite map_map in J. apply NoDup_remove_2 in NB. apply NB. apply in_or_app. right. exact J.
    + apply in_app_or in J as [J|J].
      * assert (K : In (fname f) (map fname (l_dec L))) by (rewrite <- N4; exact J).
        rewrite C4 in K. revert K. apply (names_apart _ _ _ I). discriminate.
      * assert (K : In (fname f) (map fname (l_ori L))) by (rewrite <- N5; exact J).
        rewrite C3 in K. revert K. apply (names_apart _ _ _ I). discriminate.
  - exact F.
Qed.

Theorem label_field : forall i f tag kind path ft, unmarshal_with dec m ref labels t v dat = (v', ref', Ok u) ->
  nth_error (of_class Label l) i = Some f -> tag2 (ftag f) = Ok (tag, kind) -> find_field t (fname f) = Some (path, ft) ->
  exists w, ((exists s, In (IAttr tag (EStr s)) body /\ w = HText s)
             \/ ((forall e, ~ In (IAttr tag e) body) /\ w = hget v path)) /\
    (List.length labels = List.length (of_class Label l) /\ w = HText "" /\
       (exists s, nth_error labels i = Some s /\ hget v' path = HText s)
     \/ ~ (List.length labels = List.length (of_class Label l) /\ w = HText "") /\ hget v' path = w).
Proof.
  intros i f tag kind path ft H If T F.
  apply decoded_inv in H as (its & attrs & L & p & raw & P & -> & FA & D & NN & LF & C & S & G & R).
  destruct C as (C1 & C2 & C3 & C4 & _).
  assert (I : In (f, Label) l) by (apply of_class_In; exact (nth_error_In _ _ If)).
  unfold split_body in S. apply bindr_Ok in S as (q & S & X).
  apply split_attrs_parts in S as (S1 & S2 & S3 & _).
  apply gohcl_decode_inv in G as (_ & G & _).
  pose proof (gohcl_values_len _ _ _ G) as Len.
  assert (PA : label_attr (null_names attrs) L tag = true).
  { unfold label_attr. rewrite <- (tag_of_tag2 _ _ _ T), C1, C4.
    rewrite (tag_null _ _ _ NN I eq_refl), !(tag_only _ _ _ I eq_refl) by (reflexivity || discriminate).
    rewrite (tag_own _ _ I). reflexivity. }
  assert (LK : lookup tag (p_labels p) = lookup tag (map (fun a => (a_name a, a_value a)) attrs)).
  { injection X as <-. cbn [p_labels]. rewrite S2, (lookup_filter_name _ (label_attr (null_names attrs) L)), PA. reflexivity. }
  destruct (action_names dec dat t (l_map L) p raw L labels Len) as (N1 & N2 & N3 & N4 & N5).
  assert (ND1 : NoDup (map fname (l_labels L))) by (rewrite C1; apply class_names).
  (* the rest of the run does not name f *)
  assert (NR : ~ In (fname f) (map fst (plain_actions p (l_new L) raw ++ generic_actions E dat p (l_dec L)
       ++ block_actions E depth zero assignable hook dec dat t (l_map L) p (l_ori L)))%list).
  { rewrite !map_app. intro J. apply in_app_or in J as [J|J]; [|apply in_app_or in J as [J|J]].
    - revert J; intro J; assert (J' := eq_ind _ (fun z => In (fname f) z) J _ N3); cbn beta in J'; rewrite C2 in J'; revert J'. apply (names_apart _ _ _ I). discriminate.
    - revert J; intro J; assert (J' := eq_ind _ (fun z => In (fname f) z) J _ N4); cbn beta in J'; rewrite C4 in J'; revert J'. apply (names_apart _ _ _ I). discriminate.
    - revert J; intro J; assert (J' := eq_ind _ (fun z => In (fname f) z) J _ N5); cbn beta in J'; rewrite C3 in J'; revert J'. apply (names_apart _ _ _ I). discriminate. }
  rewrite <- C1 in If. apply run_Ok_app in R as (v1 & r1 & R1 & R).
  apply run_Ok_app in R as (v2 & r2 & R2 & R3).
  apply run_before with (name := fname f) (p := path) (ft := ft) in R3; [|exact NR|exact F].
  rewrite R3. clear NR R3.
  exists (hget v1 path). split.
  - apply nth_error_split in If as (c1 & c2 & Ec & _). unfold label_attr_actions in R1.
    rewrite Ec, map_app in R1. cbn [map] in R1. rewrite Ec, map_app in ND1. cbn [map] in ND1.
    apply NoDup_remove_2 in ND1. rewrite in_app_iff in ND1.
    apply run_value with (p := path) (ft := ft) in R1 as (v0 & r0 & r0' & R0 & R1); [| |exact F].
    2: { rewrite map_map. cbn [fst]. tauto. }
    apply run_before with (name := fname f) (p := path) (ft := ft) in R0; [| |exact F].
    2: { rewrite map_map. cbn [fst]. tauto. }
    unfold pure in R1. rewrite (tag_of_tag2 _ _ _ T), LK in R1.
    destruct (lookup_attr _ a_value its attrs tag FA D) as [(a & e & L1 & Na & J & M)|(L1 & Z)]; rewrite L1 in R1.
    + left. destruct (a_value a) eqn:V; try (destruct R1 as [(R1 & _)|(? & ? & R1 & _)]; discriminate).
      destruct R1 as [(R1 & _)|(xt & x & R1 & _ & Vx)]; [discriminate|]. injection R1 as _ <- <-.
      inversion M; subst. exists s. split; [apply erase_attr; eauto|exact Vx].
    + right. split; [exact Z|]. destruct R1 as [(_ & V)|(? & ? & R1 & _)]; [congruence|discriminate].
  - unfold label_arg_actions in R2. rewrite <- C1.
    destruct (Nat.eqb_spec (List.length labels) (List.length (l_labels L))) as [EL|NL].
    + assert (IL : exists s, nth_error labels i = Some s).
      { destruct (nth_error labels i) eqn:X1; [eauto|]. apply nth_error_None in X1.
        assert (nth_error (l_labels L) i <> None) as X2 by congruence. apply nth_error_Some in X2. lia. }
      destruct IL as (s & IL).
      assert (Ic : nth_error (combine (l_labels L) labels) i = Some (f, s)).
      { clear -If IL. revert i labels If IL. induction (l_labels L) as [|g gs IH]; intros i [|y ys] If IL;
          destruct i; try discriminate; cbn in *; [congruence|]. exact (IH _ _ If IL). }
      apply nth_error_split in Ic as (c1 & c2 & Ec & _).
      assert (Nm : map (fun fx => fname (fst fx)) (combine (l_labels L) labels) = map fname (l_labels L)).
      { clear -EL. revert labels EL. induction (l_labels L) as [|g gs IH]; intros [|y ys] EL; try discriminate; [reflexivity|].
        cbn in *. rewrite IH by lia. reflexivity. }
      rewrite <- Nm, Ec, map_app in ND1. cbn [map fst] in ND1. apply NoDup_remove_2 in ND1. rewrite in_app_iff in ND1.
      rewrite Ec, map_app in R2. cbn [map fst snd] in R2.
      apply run_value with (p := path) (ft := ft) in R2 as (v0 & r0 & r0' & R0 & R2); [| |exact F].
      2: { rewrite map_map. cbn [fst]. tauto. }
      apply run_before with (name := fname f) (p := path) (ft := ft) in R0; [| |exact F].
      2: { rewrite map_map. cbn [fst]. tauto. }
      unfold field_text in R2. rewrite F, R0 in R2.
      destruct (String.eqb_spec (text_of (hget v1 path)) "") as [Z|Z].
      * left. split; [exact EL|]. split.
        { destruct (hget v1 path); try discriminate Z. cbn in Z. subst. reflexivity. }
        exists s. split; [exact IL|]. destruct R2 as [(R2 & _)|(xt & x & R2 & _ & V)]; [discriminate|]. congruence.
      * right. split; [intros (_ & W); rewrite W in Z; apply Z; reflexivity|].
        destruct R2 as [(_ & V)|(xt & x & R2 & _)]; [congruence|discriminate].
    + right. split; [tauto|]. injection R2 as <- _. reflexivity.
Qed.

(* The first block of a type in a body. *)
Definition first_block (body : list item) (tag : string) (ls : list string) (b : list item) : Prop :=
  exists pre post, body = (pre ++ IBlock tag ls b :: post)%list /\ forall ls' b', ~ In (IBlock tag ls' b') pre.
Lemma first_block_of : forall tag its hb bs, blocks_of tag (file_blocks its) = hb :: bs ->
  exists ls o c b, hb = mkBlock tag ls o c /\ In (PBlock tag ls o c b) its /\ first_block (map erase its) tag ls b.
Proof.
  intros tag its hb bs. induction its as [|i its IH]; [discriminate|]. intro H.
  assert (S : forall x, (forall ls b, x <> IBlock tag ls b) -> forall ls b, first_block (map erase its) tag ls b ->
    first_block (x :: map erase its) tag ls b).
  { intros x Nx ls b (pre & post & -> & F). exists (x :: pre), post. split; [reflexivity|].
    intros ls' b' [X|X]; [exact (Nx _ _ X)|exact (F _ _ X)]. }
  destruct i as [k e q z|k ls o c b].
  - destruct (IH H) as (ls & o & c & b & -> & I & F). exists ls, o, c, b. split; [reflexivity|]. split; [right; exact I|].
    apply S; [discriminate|exact F].
  - unfold blocks_of, file_blocks in H. cbn [flat_map app filter b_type] in H.
    destruct (String.eqb_spec k tag) as [->|Nk].
    + injection H as <- _. exists ls, o, c, b. split; [reflexivity|]. split; [left; reflexivity|].
      exists [], (map erase its). split; [reflexivity|]. intros ? ? [].
    + destruct (IH H) as (ls' & o' & c' & b' & -> & I & F). exists ls', o', c', b'. split; [reflexivity|].
      split; [right; exact I|]. apply S; [intros ? ? X; injection X; auto|exact F].
Qed.

Theorem generic_field : forall f tag kind path ft, unmarshal_with dec m ref labels t v dat = (v', ref', Ok u) ->
  In (f, Generic) l -> tag2 (ftag f) = Ok (tag, kind) -> find_field t (fname f) = Some (path, ft) ->
  (exists e n, In (IAttr tag e) body /\ expr_value e n /\ hget v' path = HNative n /\
     (if is_slice E (ftype f) then exists es, e = ETuple es else exists es, e = EObj es))
  \/ ((forall e, ~ In (IAttr tag e) body) /\
      ((exists ls b n, first_block body tag ls b /\ decode_body b = Ok n /\ hget v' path = HNative n)
       \/ ((forall ls b, ~ In (IBlock tag ls b) body) /\ hget v' path = hget v path))).
Proof.
  intros f tag kind path ft H I T F.
  apply decoded_inv in H as (its & attrs & L & p & raw & P & -> & FA & D & NN & LF & C & S & G & R).
  destruct C as (C1 & C2 & C3 & C4 & _).
  unfold split_body in S. apply bindr_Ok in S as (q & S & X).
  apply split_attrs_parts in S as (S1 & S2 & S3 & _).
  apply gohcl_decode_inv in G as (_ & G & _).
  pose proof (gohcl_values_len _ _ _ G) as Len.
  assert (PA : dec_attr (null_names attrs) L tag = true).
  { unfold dec_attr. rewrite <- (tag_of_tag2 _ _ _ T), C4.
    rewrite (tag_null _ _ _ NN I eq_refl), (tag_own _ _ I). reflexivity. }
  assert (LK : lookup tag (p_decattrs p) = lookup tag (map (fun a => (a_name a, a)) attrs)).
  { injection X as <-. cbn [p_decattrs]. rewrite S3.
    rewrite (lookup_filter_name _ (dec_attr (null_names attrs) L) (fun a => a)), PA. reflexivity. }
  assert (PB : blocks_of tag (p_decblock p) = blocks_of tag (file_blocks its)).
  { injection X as <-. cbn [p_decblock]. pose proof (tag_own _ _ I) as TO. rewrite (tag_of_tag2 _ _ _ T), <- C4 in TO.
    pose proof (tag_only _ _ Block I eq_refl eq_refl ltac:(discriminate)) as TN. rewrite (tag_of_tag2 _ _ _ T), <- C3 in TN.
    clear -TO TN. unfold blocks_of. induction (file_blocks its) as [|b bs IH]; [reflexivity|]. cbn [filter].
    destruct (String.eqb_spec (b_type b) tag) as [Eb|Nb].
    - rewrite Eb, TN. cbn [negb filter]. rewrite Eb, TO. cbn [filter]. rewrite Eb, String.eqb_refl, IH. reflexivity.
    - destruct (negb (tag_in (l_ori L) (b_type b))); [|exact IH]. cbn [filter].
      destruct (tag_in (l_dec L) (b_type b)); [|exact IH]. cbn [filter].
      destruct (String.eqb_spec (b_type b) tag); [contradiction|exact IH]. }
  destruct (action_names dec dat t (l_map L) p raw L labels Len) as (N1 & N2 & N3 & N4 & N5).
  assert (If : In f (l_dec L)) by (rewrite C4; apply of_class_In; exact I).
  apply in_split in If as (c1 & c2 & Ec).
  assert (NB : NoDup (map fname (l_dec L))) by (rewrite C4; apply class_names).
  rewrite Ec, map_app in NB. cbn [map fst] in NB. apply NoDup_remove_2 in NB. rewrite in_app_iff in NB.
  unfold generic_actions in R. rewrite Ec, map_app in R. cbn [map] in R.
  match type of R with run _ _ _ _ ?acts _ _ = _ => match acts with
    (?a ++ ?b ++ ?x ++ (?c ++ ?d :: ?e) ++ ?y)%list =>
    replace acts with ((a ++ b ++ x ++ c) ++ d :: (e ++ y))%list in R by (rewrite <- !app_assoc; reflexivity) end end.
  apply run_value with (p := path) (ft := ft) in R as (v1 & r1 & r2 & R1 & R2); [| |exact F].
  2: { rewrite map_app. intro J. apply in_app_or in J as [J|J].
    - rewrite map_map in J. cbn [fst] in J. tauto.
    - revert J; intro J; assert (J' := eq_ind _ (fun z => In (fname f) z) J _ N5); cbn beta in J'; rewrite C3 in J'; revert J'. apply (names_apart _ _ _ I). discriminate. }
  apply run_before with (name := fname f) (p := path) (ft := ft) in R1; [| |exact F].
  2: { rewrite !map_app. intro J. apply in_app_or in J as [J|J]; [|apply in_app_or in J as [J|J]; [|apply in_app_or in J as [J|J]]].
    - apply N1 in J. rewrite C1 in J. revert J. apply (names_apart _ _ _ I). discriminate.
    - apply N2 in J. rewrite C1 in J. revert J. apply (names_apart _ _ _ I). discriminate.
    - revert J; intro J; assert (J' := eq_ind _ (fun z => In (fname f) z) J _ N3); cbn beta in J'; rewrite C2 in J'; revert J'. apply (names_apart _ _ _ I). discriminate.
    - rewrite map_map in J. cbn [fst] in J. tauto. }
  unfold pure in R2. rewrite (tag_of_tag2 _ _ _ T), LK, PB in R2.
  destruct (lookup_attr _ (fun a => a) its attrs tag FA D) as [(a & e & L1 & Na & J & M)|(L1 & Z)]; rewrite L1 in R2.
  - left. destruct R2 as [(R2 & _)|(xt & x & R2 & _ & V)].
    { unfold decode_generic in R2. destruct (is_slice E (ftype f)); [destruct (decode_slice _)|destruct (decode_map _)]; discriminate. }
    pose proof (attr_text_parses _ _ _ _ _ _ P J) as PT.
    unfold decode_generic in R2. destruct (is_slice E (ftype f)).
    + destruct (decode_slice (slice dat (a_eq a) (a_end a))) as [n| |] eqn:DS; try discriminate. injection R2 as _ _ <-.
      unfold decode_slice in DS. rewrite PT in DS. cbn [bindr first_expr body_attrs] in DS. cbn in DS.
      destruct e as [| | | | | | |es|]; try discriminate.
      exists (ETuple es), n. split; [apply erase_attr; eauto|]. split; [exact (expr_sound (ETuple es) n DS)|]. eauto.
    + destruct (decode_map (slice dat (a_eq a) (a_end a))) as [n| |] eqn:DS; try discriminate. injection R2 as _ _ <-.
      unfold decode_map in DS. destruct (trim (slice dat (a_eq a) (a_end a))) as [|c r]; [discriminate|].
      destruct (_ && _) in DS.
      * rewrite PT in DS. cbn in DS. destruct e as [| | | | | | | |es]; try discriminate.
        exists (EObj es), n. split; [apply erase_attr; eauto|]. split; [exact (expr_sound (EObj es) n DS)|]. eauto.
      * apply bindr_Ok in DS as (b & DS & _). exfalso. exact (attr_text_no_body _ _ _ _ _ _ _ P J DS).
  - right. split; [exact Z|].
    destruct (blocks_of tag (file_blocks its)) as [|b bs] eqn:Bs.
    + right. split.
      * intros ls b IB. apply in_map_iff in IB as ([| k ls' o c b'] & IE & IB); [discriminate|]. injection IE as -> -> ->.
        assert (In (mkBlock tag ls o c) (blocks_of tag (file_blocks its))) as K.
        { unfold blocks_of. apply filter_In. split; [|apply String.eqb_refl]. unfold file_blocks. apply in_flat_map.
          exists (PBlock tag ls o c b). split; [exact IB|left; reflexivity]. }
        rewrite Bs in K. contradiction.
      * destruct R2 as [(_ & V)|(? & ? & R2 & _)]; [congruence|discriminate].
    + left. apply first_block_of in Bs as (ls & o & c & b' & -> & IB & FB).
      pose proof (block_text_parses _ _ _ _ _ _ _ P IB) as PT.
      exists ls, b'. destruct R2 as [(R2 & _)|(xt & x & R2 & _ & V)].
      { unfold decode_generic in R2. destruct (is_slice E (ftype f)); [destruct (decode_slice _)|destruct (decode_map _)]; discriminate. }
      unfold decode_generic, block_bytes in R2. cbn [b_open b_close] in R2.
      destruct (is_slice E (ftype f)).
      * destruct (decode_slice (slice dat o c)) as [n| |] eqn:DS; try discriminate. exfalso.
        unfold decode_slice in DS. apply bindr_Ok in DS as (its' & PX & DS).
        destruct (first_expr its') as [e|] eqn:FE; [|discriminate]. exact (body_no_expr _ _ _ _ PT PX FE).
      * destruct (decode_map (slice dat o c)) as [n| |] eqn:DS; try discriminate. injection R2 as _ _ <-.
        exists n. split; [exact FB|]. split; [|exact V].
        unfold decode_map in DS. destruct (trim (slice dat o c)) as [|h r]; [discriminate|].
        destruct (_ && _) in DS.
        -- apply bindr_Ok in DS as (its' & PX & DS).
           destruct (first_expr its') as [e|] eqn:FE; [|discriminate]. exfalso. exact (body_no_expr _ _ _ _ PT PX FE).
        -- rewrite PT in DS. exact DS.
Qed.

(* Everything in the text is used, or there is an error. *)
Theorem all_claimed : unmarshal_with dec m ref labels t v dat = (v', ref', Ok u) ->
  (forall k e, In (IAttr k e) body -> means e CNull \/
     exists f c kind, In (f, c) l /\ claimed c = true /\ tag2 (ftag f) = Ok (k, kind)) /\
  (forall k ls b, In (IBlock k ls b) body ->
     exists f c kind, In (f, c) l /\ (c = Block \/ c = Generic) /\ tag2 (ftag f) = Ok (k, kind)).
Proof.
  intro H. apply decoded_inv in H as (its & attrs & L & p & raw & P & -> & FA & D & NN & LF & C & S & G & R).
  destruct C as (C1 & C2 & C3 & C4 & _).
  assert (Back : forall c k, tag_in (of_class c l) k = true -> exists f kind, In (f, c) l /\ tag2 (ftag f) = Ok (k, kind)).
  { intros c k TI. apply tag_in_spec in TI as (f & I & Tf). apply of_class_In in I.
    destruct (class_tag _ _ _ _ (all_fields_class _ _ _ _ A _ _ I)) as (tf & kf & Tg & _).
    rewrite (tag_of_tag2 _ _ _ Tg) in Tf. subst tf. eauto. }
  unfold split_body in S. apply bindr_Ok in S as (q & S & X).
  apply split_attrs_parts in S as (S1 & _).
  apply gohcl_decode_inv in G as (G1 & _ & G3). split.
  - intros k e I. apply erase_attr in I as (x & z & I). destruct (file_attrs_In _ _ FA) as (F1 & F2).
    destruct (F2 _ _ _ _ I) as (y & Y & J).
    destruct (grep (null_names attrs) k) eqn:Gn.
    { left. apply grep_spec in Gn. unfold null_names in Gn. apply in_map_iff in Gn as (a & Na & Ia).
      apply filter_In in Ia as (Ia & Za).
      assert (a = mkAttr k y x z).
      { clear -D Ia J Na. induction attrs as [|b bs IH]; [contradiction|]. cbn in D. inversion D as [|? ? NI D']; subst.
        destruct Ia as [->|Ia], J as [->|J]; auto.
        - exfalso. apply NI. apply (List.in_map a_name) in J. cbn in J. exact J.
        - exfalso. apply NI. apply (List.in_map a_name) in Ia. cbn. exact Ia. }
      subst a. cbn in Za. destruct y; try discriminate. apply expr_cty_means. exact Y. }
    right. destruct (tag_in (of_class Generic l) k) eqn:T1; [destruct (Back _ _ T1) as (f & kd & A1 & A2); exists f, Generic, kd; auto|].
    destruct (tag_in (of_class Label l) k) eqn:T2; [destruct (Back _ _ T2) as (f & kd & A1 & A2); exists f, Label, kd; auto|].
    destruct (tag_in (of_class Block l) k) eqn:T3; [destruct (Back _ _ T3) as (f & kd & A1 & A2); exists f, Block, kd; auto|].
    assert (T4 : tag_in (l_new L) k = true).
    { apply (G3 k y). injection X as <-. cbn [p_plain]. rewrite S1. apply in_map_iff. exists (mkAttr k y x z).
      split; [reflexivity|]. apply filter_In. split; [exact J|]. unfold plain_attr. cbn [a_name].
      rewrite Gn, C4, C1, C3, T1, T2, T3. reflexivity. }
    rewrite C2 in T4. destruct (Back _ _ T4) as (f & kd & A1 & A2). exists f, Attr, kd. auto.
  - intros k ls b I. apply in_map_iff in I as ([|k' ls' o c b'] & IE & IB); [discriminate|]. injection IE as -> -> ->.
    destruct (tag_in (of_class Block l) k) eqn:T3; [destruct (Back _ _ T3) as (f & kd & A1 & A2); exists f, Block, kd; auto|].
    destruct (tag_in (of_class Generic l) k) eqn:T1; [destruct (Back _ _ T1) as (f & kd & A1 & A2); exists f, Generic, kd; auto|].
    exfalso. assert (K : In (mkBlock k ls o c) (p_rest p)).
    { injection X as <-. cbn [p_rest]. apply filter_In. split; [apply filter_In; split|]; cbn [b_type].
      - unfold file_blocks. apply in_flat_map. exists (PBlock k ls o c b). split; [exact IB|left; reflexivity].
      - rewrite C3, T3. reflexivity.
      - rewrite C4, T1. reflexivity. }
    rewrite G1 in K. contradiction.
Qed.

(* Nothing else changes, whatever the outcome. *)
Theorem untouched : forall r path, unmarshal_with dec m ref labels t v dat = (v', ref', r) ->
  (forall f c p ft, In (f, c) l -> claimed c = true -> find_field t (fname f) = Some (p, ft) -> path <> p) ->
  hget v' path = hget v path.
Proof.
  intros r path H NP. unfold StructModel.unmarshal_with in H. rewrite U in H.
  destruct (parse_file dat) as [its| |] eqn:P; cbn [bindr] in H; try (injection H as <- _ _; reflexivity).
  destruct (file_attrs its) as [attrs| |] eqn:FA; cbn [bindr] in H; try (injection H as <- _ _; reflexivity).
  fold (null_names attrs) in H.
  destruct (loop_fields E type_string zero depth (null_names attrs) fs m ref) as [L| |] eqn:LF;
    try (injection H as <- _ _; reflexivity).
  destruct (split_body dat (null_names attrs) L attrs (file_blocks its)) as [p| |] eqn:S; cbn [bindr] in H;
    try (injection H as <- _ _; reflexivity).
  destruct (gohcl_decode zero decode_attr (l_new L) (p_plain p) (p_rest p)) as [raw| |] eqn:G; cbn [bindr] in H;
    try (injection H as <- _ _; reflexivity).
  pose proof (file_sound _ _ P) as P'. rewrite B in P'. injection P' as ->.
  assert (NN : forall k, In k nulls <-> In k (null_names attrs)).
  { intro k. rewrite N. unfold null_names. destruct (file_attrs_In _ _ FA) as (F1 & F2). split.
    - intros (e & I & M). apply erase_attr in I as (q & z & I).
      destruct (F2 _ _ _ _ I) as (x & X & J). apply in_map_iff. exists (mkAttr k x q z).
      split; [reflexivity|]. apply filter_In. split; [exact J|]. cbn.
      assert (x = CNull) by (inversion M; subst; cbn in X; congruence). subst x. reflexivity.
    - intro I. apply in_map_iff in I as (a & <- & I). apply filter_In in I as (I & Z).
      destruct (F1 a I) as (e & J & X). exists e. split; [apply erase_attr; eauto|].
      destruct (a_value a) eqn:V; try discriminate. apply expr_cty_means. exact X. }
  assert (C : classified nulls (keys m) fs l m L).
  { pose proof (all_fields_ext _ _ _ _ _ NN A) as A'.
    eapply loop_fields_spec in LF; [|exact A'| |exact ND].
    - destruct LF as (C1 & C2 & C3 & C4 & C5). repeat split; assumption.
    - intros f c _. split.
      + intros I K. apply lookup_None in K. exact (K I).
      + intro K. destruct (lookup (fname f) m) as [x|] eqn:LK; [|congruence]. apply lookup_Some_key. eauto. }
  destruct C as (C1 & C2 & C3 & C4 & _).
  apply gohcl_decode_inv in G as (_ & G & _). pose proof (gohcl_values_len _ _ _ G) as Len.
  destruct (action_names dec dat t (l_map L) p raw L labels Len) as (N1 & N2 & N3 & N4 & N5).
  match type of H with ?x = _ => replace v' with (fst (fst x)) by (rewrite H; reflexivity) end.
  apply run_frame. intros name p0 ft0 I F.
  assert (K : exists c, claimed c = true /\ In name (map fname (of_class c l))).
  { rewrite !map_app, !in_app_iff in I. destruct I as [I|[I|[I|[I|I]]]].
    - exists Label. rewrite <- C1. split; [reflexivity|]. apply N1. exact I.
    - exists Label. rewrite <- C1. split; [reflexivity|]. apply N2. exact I.
    - exists Attr. rewrite <- C2. split; [reflexivity|]. rewrite <- N3. exact I.
    - exists Generic. rewrite <- C4. split; [reflexivity|]. rewrite <- N4. exact I.
    - exists Block. rewrite <- C3. split; [reflexivity|]. rewrite <- N5. exact I. }
  destruct K as (c & Cc & K). apply in_map_iff in K as (f & <- & K). apply of_class_In in K.
  exact (NP f c p0 ft0 K Cc F).
Qed.
End One.
End Result.
