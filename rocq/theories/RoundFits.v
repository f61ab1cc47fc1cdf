(* What is written for a value that comes back fits its type. *)

From Verif Require Import Base GoType DetModel CtyModel HclModel HclSpec HclDecode TagModel StructModel StructSpec StructFields StructRun
  StructResult StructBlock StructSound MarshalSpec RoundSpec RoundProofs.
From Verif Require CtySpec FitSpec FitProofs.
From Coq Require Import Lia.
Local Open Scope nat_scope.

(* ----- generic data ----- *)

Lemma good_means : forall e, good_expr e -> exists x, means e x.
Proof.
  fix IH 1. intros e G. destruct e as [z|dm dk|s|b| |f|x|l|m].
  - eexists. constructor.
  - eexists. constructor.
  - eexists. constructor.
  - eexists. constructor.
  - eexists. constructor.
  - inversion G; subst. eexists. constructor.
  - inversion G.
  - assert (X : exists u, Forall2 means l u).
    { assert (G' : forall e, In e l -> good_expr e) by (inversion G; assumption). clear G.
      induction l as [|e l IHl]; [exists []; constructor|].
      destruct (IH e (G' e (or_introl eq_refl))) as (x & Hx).
      destruct (IHl (fun e' I => G' e' (or_intror I))) as (u & Hu). exists (x :: u). constructor; assumption. }
    destruct X as (u & Hu). eexists. constructor. exact Hu.
  - assert (X : exists u : list (string * cval), Forall2 (fun ke kv => fst ke = fst kv /\ means (snd ke) (snd kv)) m u).
    { assert (G' : forall k e, In (k, e) m -> good_expr e) by (inversion G; assumption). clear G.
      induction m as [|[k e] m IHm]; [exists []; constructor|].
      destruct (IH e (G' k e (or_introl eq_refl))) as (x & Hx).
      destruct (IHm (fun k' e' I => G' k' e' (or_intror I))) as (u & Hu). exists ((k, x) :: u). constructor; auto. }
    destruct X as (u & Hu). eexists. constructor. exact Hu.
Qed.
Lemma list_tuple : forall e l, good_expr e -> l <> [] -> (forall n, expr_value e n -> same (NList l) n) -> exists es, e = ETuple es.
Proof.
  intros e l G N H. destruct (expr_complete e G) as (v & Hv). apply expr_sound in Hv. pose proof (H v Hv) as X.
  inversion X; subst; try congruence; inversion Hv; subst; eauto;
    try (match goal with H : literal_native _ _ |- _ => inversion H; subst end);
    try (match goal with H : scalar _ |- _ => inversion H end); unfold CtySpec.native_int in *; intuition discriminate.
Qed.
Lemma map_not_empty : forall m, m <> [] -> (forall n, body_value [] n -> same (NMap m) n) -> False.
Proof.
  intros m N H. assert (X : body_value [] (NMap [])).
  { constructor; [intros i []|constructor|intro k; cbn; tauto|intros k v X; discriminate]. }
  apply H in X. inversion X; subst; [match goal with H : scalar _ |- _ => inversion H end|].
  destruct m as [|[k v] m]; [congruence|]. match goal with H : forall k, lookup k _ = None <-> _ |- _ => specialize (H k); cbn in H end.
  destruct (eq_dec k k); [|contradiction]. intuition discriminate.
Qed.

Section Fits.
Variable E : env.
Variable depth : nat.
Variable zero : gtype -> hval.
Variable assignable : gtype -> gtype -> bool.
Variable decode_attr : gtype -> cval -> result hval.
Variable own_method : gtype -> Prop.
Variable is_zero : gtype -> hval -> bool.
Variable to_cty : gtype -> hval -> result cval.
Variable len0 : hval -> bool.
Notation returns := (returns E depth is_zero zero to_cty len0 assignable decode_attr own_method).
Notation may_miss := (may_miss E).
Notation decodes := (decodes to_cty decode_attr).
Notation represents := (represents E is_zero to_cty len0).
Notation field_part := (field_part E is_zero to_cty len0).
Notation elem_blocks := (elem_blocks E is_zero to_cty len0).
Notation entry_blocks := (entry_blocks E is_zero to_cty len0).
Notation fits := (FitSpec.fits E depth assignable decode_attr own_method).
Notation field_fits := (FitSpec.field_fits E depth assignable decode_attr own_method).

Hypothesis pointer_not_nil : forall t u w, is_zero t (HPtr u w) = false.
Hypothesis list_not_zero : forall t l, l <> [] -> is_coll E t -> is_zero t (HNative (NList l)) = false.
Hypothesis map_not_zero : forall t m, m <> [] -> is_coll E t -> is_zero t (HNative (NMap m)) = false.
Hypothesis zero_text : forall t s, GoType.under E t = TBasic "string" -> is_zero t (HText s) = true <-> s = "".
Hypothesis attr_not_null : forall t v c, simple E t \/ (exists et, has_elem E t et /\ simple E et) ->
  is_zero t v = false -> to_cty t v = Ok c -> c <> CNull.
Hypothesis assign_self : forall t, assignable t t = true.
Hypothesis assign_pointer : forall t u, GoType.under E t = TPtr u -> assignable (TPtr u) t = true.

Definition fit_part (f : gfield) (x : hval) : Prop := forall addr key pt body c kind, field_part addr key f x pt ->
  (forall e, In (IAttr (hcl_name f) e) body <-> In (IAttr (hcl_name f) e) (pt_attrs pt ++ pt_outs pt)) ->
  tag_blocks body (hcl_name f) = tag_blocks (pt_outs pt) (hcl_name f) ->
  class_of E [] [] f c -> claimed c = true -> c <> Label -> hcl_kind f = kind ->
  field_fits f (ftype f) (hcl_name f) kind body c /\
  (forall e, In (IAttr (hcl_name f) e) body -> (c = Attr \/ c = Generic) /\ exists x, means e x) /\
  (forall ls b, In (ls, b) (tag_blocks body (hcl_name f)) -> c = Block \/ c = Generic).
Definition fit_struct (t : gtype) (key : list string) (v : hval) : Prop := ~ own_method t /\
  forall addr labels its, represents addr t v key labels its -> fits t its /\ (List.length key = 2 -> labels = []).

Ltac kinds := repeat match goal with
  | H : has_elem E _ _ |- _ => destruct H as [H|(? & H)]
  | H : is_struct E _ |- _ => destruct H as (? & H)
  | H : is_interface E _ |- _ => destruct H as (? & H)
  | H : is_pointer E _ |- _ => destruct H as (? & H)
  | H : is_coll E _ |- _ => destruct H as (? & H)
  | H : is_coll E _ \/ is_interface E _ |- _ => destruct H as [H|H]
  | H : simple E _ |- _ => let u := fresh "u" in destruct H as (u & <- & H)
  | H : _ \/ (exists et, has_elem E _ et /\ simple E et) |- _ => destruct H as [H|(? & H & ?)]
  | H : attr_type E len0 _ _ |- _ => destruct H as [H|(? & H & ? & ?)]
  | H : GoType.under E ?t = _, H' : GoType.under E ?t = _ |- _ => rewrite H in H'; first [discriminate H'|injection H'; clear H'; intros; subst]
  | H : GoType.under E ?t = _, H' : match GoType.under E ?t with _ => _ end |- _ => rewrite H in H'; try contradiction
  end.
Ltac destruct_sp := try (match goal with H : is_struct E _ \/ is_pointer E _ |- _ => destruct H; kinds end).
Ltac no_data := exfalso; match goal with H : data_field _ _ _ _ _ |- _ => inversion H; subst end.
Ltac direct := match goal with
  | H : through E (ftype ?f) ?v ?t ?w |- _ =>
    let X := fresh in assert (X : t = ftype f /\ w = v) by (apply (through_self E _ _ _ _ H); intros ? ?; kinds);
    destruct X as [X ?]; subst t; try subst w
  end.

Lemma no_block_tag : forall body tag, tag_blocks body tag = [] -> FitSpec.no_block body tag.
Proof.
  intros body tag H ls b I. assert (X : In (ls, b) (tag_blocks body tag)) by (apply RoundProofs.tag_blocks_In; exact I).
  rewrite H in X. exact X.
Qed.

(* Nothing was written for the field. *)
Lemma missing_fits : forall f x body c kind, (forall e, ~ In (IAttr (hcl_name f) e) body) -> tag_blocks body (hcl_name f) = [] ->
  class_of E [] [] f c -> claimed c = true -> c <> Label -> hcl_kind f = kind -> may_miss f ->
  field_fits f x (hcl_name f) kind body c /\
  (forall e, In (IAttr (hcl_name f) e) body -> (c = Attr \/ c = Generic) /\ exists x, means e x) /\
  (forall ls b, In (ls, b) (tag_blocks body (hcl_name f)) -> c = Block \/ c = Generic).
Proof.
  intros f x body c kind NA NB K C NL Ek M. split; [|split].
  - assert (K' : c = Attr -> kind = "optional").
    { intros ->. rewrite <- Ek. destruct M as [M|(u & P & M)]; [exact M|]. exfalso. inversion K; subst.
      match goal with H : points E _ ?t |- _ => assert (t = u) by (eapply points_unique; eassumption); subst t end. destruct M; contradiction. }
    destruct c; try discriminate; try contradiction.
    all: try (rewrite (K' eq_refl); apply FitSpec.ff_optional; exact NA).
    all: first [apply FitSpec.ff_no_block; apply no_block_tag; exact NB|apply FitSpec.ff_no_data; [exact NA|apply no_block_tag; exact NB]].
  - intros e I. destruct (NA e I).
  - intros ls b I. rewrite NB in I. destruct I.
Qed.

Ltac missing := apply missing_fits; [intros ? X; match goal with H : forall e, In _ _ <-> In _ _ |- _ => apply H in X; exact X end|assumption|assumption|assumption|assumption|first [assumption|reflexivity]|].

Lemma fit_zero : forall f v, hcl_kind f <> "label" -> is_zero (ftype f) v = true -> ~ is_struct E (ftype f) -> may_miss f -> fit_part f v.
Proof.
  intros f v K Z NS MM addr key pt body c kind P IA IB KC C NL Ek.
  assert (T : forall t w, through E (ftype f) v t w -> t = ftype f /\ w = v).
  { intros t' w H. destruct H as [t' v'' _|t' u u' w H1 H2]; [auto|]. rewrite pointer_not_nil in Z. discriminate. }
  inversion P; subst; cbn [pt_attrs pt_outs app nothing] in IA, IB; try (missing; exact MM); try congruence;
    try (match goal with H : through E (ftype f) _ _ _ |- _ => destruct (T _ _ H); subst; congruence end).
  - match goal with H : through E (ftype f) _ _ _ |- _ => destruct (T _ _ H) as [-> <-] end.
    rewrite list_not_zero in Z; [discriminate|assumption|]. eexists. left. eassumption.
  - match goal with H : through E (ftype f) _ _ _ |- _ => destruct (T _ _ H) as [-> <-] end.
    rewrite map_not_zero in Z; [discriminate|assumption|]. eexists. right. eexists. eassumption.
  - match goal with H : through E (ftype f) _ _ _ |- _ => destruct (T _ _ H) as [-> <-] end.
    match goal with H : data_field _ _ _ _ _ |- _ => inversion H; subst; congruence end.
  - match goal with H : _ \/ (_ /\ _) |- _ => destruct H as [H|[H _]]; [congruence|contradiction] end.
Qed.

(* One attribute was written. *)
Lemma attribute_fits : forall f body c kind e x y, (forall e', In (IAttr (hcl_name f) e') body <-> e' = e) ->
  tag_blocks body (hcl_name f) = [] -> c = Attr -> hcl_kind f = kind -> attr_kind kind -> means e x -> decode_attr (ftype f) x = Ok y ->
  field_fits f (ftype f) (hcl_name f) kind body c /\
  (forall e, In (IAttr (hcl_name f) e) body -> (c = Attr \/ c = Generic) /\ exists x, means e x) /\
  (forall ls b, In (ls, b) (tag_blocks body (hcl_name f)) -> c = Block \/ c = Generic).
Proof.
  intros f body c kind e x y IA NB -> Ek K M D. split; [|split].
  - eapply FitSpec.ff_attr; [exact K|apply IA; reflexivity|exact M|exact D|apply assign_self].
  - intros e' I. apply IA in I. subst e'. eauto.
  - intros ls b I. rewrite NB in I. destruct I.
Qed.
Lemma single_attr : forall body name e, (forall e', In (IAttr name e') body <-> In (IAttr name e') [IAttr name e]) ->
  forall e', In (IAttr name e') body <-> e' = e.
Proof. intros body name e H e'. rewrite H. split; [intros [J|[]]; congruence|intros ->; left; reflexivity]. Qed.

Lemma fit_attr : forall f v, attr_kind (hcl_kind f) -> simple E (ftype f) \/ (exists et, has_elem E (ftype f) et /\ simple E et) ->
  ~ empty len0 v -> (is_zero (ftype f) v = true -> may_miss f) -> decodes (ftype f) (ftype f) v -> fit_part f v.
Proof.
  intros f v K S NE MM DC addr key pt body c kind P IA IB KC C NL Ek.
  inversion P; subst; cbn [pt_attrs pt_outs app nothing] in IA, IB.
  - missing. apply MM. match goal with H : absent _ _ _ _ _ |- _ => apply H end.
  - exfalso. match goal with H : hollow _ _ _ _ |- _ => destruct H as [H _] end. kinds.
  - missing. apply MM. direct. assumption.
  - exfalso. unfold attr_kind in K. rewrite H in K. intuition discriminate.
  - exfalso. unfold attr_kind in K. rewrite H in K. intuition discriminate.
  - destruct (DC _ H2) as (y & Hy). eapply attribute_fits; [exact (single_attr _ _ _ IA)|exact IB| |reflexivity|exact K|exact H3|exact Hy].
    apply (class_attr_type E f c KC C NL). apply simple_attr. exact S.
  - exfalso. kinds.
  - exfalso. direct. contradiction.
  - exfalso. direct. contradiction.
  - exfalso. direct. kinds.
  - exfalso. direct. kinds.
  - no_data; direct; try discriminate; kinds; destruct_sp.
  - exfalso. match goal with H : holds E _ _ _ _ _ _ |- _ => inversion H; subst end; kinds.
  - exfalso. direct. destruct S as [S|(et' & [He|(kt & He)] & S)]; [kinds| |kinds].
    assert (et' = et) by congruence. subst et'. contradiction.
  - exfalso. direct. destruct S as [S|(et' & [He|(kt' & He)] & S)]; [kinds|kinds|].
    assert (et' = et) by congruence. subst et'.
    match goal with H : entry_blocks _ _ _ _ |- _ => inversion H; subst; [congruence|] end.
    match goal with H : holds E _ _ _ _ _ _ |- _ => inversion H; subst end; kinds.
Qed.

Lemma fit_number : forall f u w, attr_kind (hcl_kind f) -> GoType.under E (ftype f) = TPtr u -> simple E u -> decodes (ftype f) u w ->
  fit_part f (HPtr u w).
Proof.
  intros f u w K U S DC addr key pt body c kind P IA IB KC C NL Ek.
  inversion P; subst; cbn [pt_attrs pt_outs app nothing] in IA, IB.
  - exfalso. destruct H as [H _]. rewrite pointer_not_nil in H. discriminate.
  - exfalso. match goal with H : hollow _ _ _ _ |- _ => destruct H as [H _] end. kinds.
  - exfalso. inversion H; subst; kinds.
  - exfalso. kinds.
  - assert (u0 = u) by congruence. subst u0.
    assert (TC : to_cty u w = Ok c0) by (match goal with N : number _ _ _ _ _ |- _ => inversion N; subst; assumption end).
    destruct (DC _ TC) as (y & Hy). eapply attribute_fits; [exact (single_attr _ _ _ IA)|exact IB| |reflexivity|exact K|eassumption|exact Hy].
    apply (class_attr_type E f c KC C NL). intros x Px.
    assert (x = u) by (inversion Px; congruence). subst x. apply (simple_attr E u (or_introl S)).
    apply points_self. intros y' Uy. kinds.
  - exfalso. inversion H; subst; kinds.
  - exfalso. inversion H; subst; kinds.
  - exfalso. inversion H; subst; kinds.
  - exfalso. inversion H; subst; kinds.
  - no_data; inversion H; subst; kinds.
  - exfalso. inversion H; subst; kinds.
  - exfalso. inversion H; subst; kinds.
  - exfalso. inversion H; subst; kinds.
Qed.

Lemma fit_list : forall f et l, hcl_kind f <> "label" -> GoType.under E (ftype f) = TSlice et -> is_interface E et -> l <> [] ->
  assignable (TSlice any) (ftype f) = true -> fit_part f (HNative (NList l)).
Proof.
  intros f et l K U I Nl As addr key pt body c kind P IA IB KC C NL Ek.
  assert (Co : is_coll E (ftype f)) by (eexists; left; exact U).
  inversion P; subst; cbn [pt_attrs pt_outs app nothing] in IA, IB.
  - exfalso. destruct H as [H _]. rewrite list_not_zero in H by assumption. discriminate.
  - exfalso. match goal with H : hollow _ _ _ _ |- _ => destruct H as [H _] end. kinds.
  - exfalso. direct. rewrite list_not_zero in H1 by assumption. discriminate.
  - exfalso. kinds.
  - exfalso. direct. inversion H2 as [| | |n [N|N]|n [N|N]|]; congruence.
  - exfalso. direct. kinds.
  - direct. match goal with X : HNative _ = HNative _ |- _ => injection X as -> end.
    assert (G : generic_type E (ftype f)) by (exists et; split; [left; exact U|exact I]).
    assert (c = Generic) as ->.
    { apply (class_generic_type E f c (ftype f) KC C NL); [|exact G]. apply points_self. intros y Uy. kinds. }
    destruct (list_tuple e l H3 Nl H4) as (es & ->). split; [|split].
    + eapply FitSpec.ff_list; [eexists; exact U|apply IA; left; reflexivity|exact H3|exact As].
    + intros e' J. apply IA in J. destruct J as [J|[]]. injection J as <-. split; [right; reflexivity|]. apply good_means. exact H3.
    + intros ls b J. right. reflexivity.
  - exfalso. direct. kinds.
  - no_data; direct; try discriminate; kinds; destruct_sp.
  - exfalso. match goal with H : holds E _ _ _ _ _ _ |- _ => inversion H; subst end; kinds.
  - exfalso. direct. discriminate.
  - exfalso. direct. kinds.
Qed.

Lemma first_tag : forall body tag ls b r, tag_blocks body tag = (ls, b) :: r -> FitSpec.first_named body tag b.
Proof.
  induction body as [|i body IH]; intros tag ls b r H; [discriminate|].
  destruct i as [k e|k ls' b'].
  - destruct (IH tag ls b r H) as (pre & l & post & -> & N). exists (IAttr k e :: pre), l, post. split; [reflexivity|].
    intros l' b' [J|J]; [discriminate|exact (N _ _ J)].
  - unfold tag_blocks in H. cbn [flat_map] in H. destruct (string_dec k tag) as [->|Nk].
    + injection H as -> -> _. exists [], ls, body. split; [reflexivity|intros l' b' []].
    + destruct (IH tag ls b r H) as (pre & l & post & -> & N). exists (IBlock k ls' b' :: pre), l, post. split; [reflexivity|].
      intros l' b'' [J|J]; [congruence|exact (N _ _ J)].
Qed.

Lemma fit_map : forall f kt et m, hcl_kind f <> "label" -> GoType.under E (ftype f) = TMap kt et -> is_interface E et -> m <> [] ->
  assignable (TMap string_type any) (ftype f) = true -> fit_part f (HNative (NMap m)).
Proof.
  intros f kt et m K U I Nl As addr key pt body c kind P IA IB KC C NL Ek.
  assert (Co : is_coll E (ftype f)) by (eexists; right; eexists; exact U).
  inversion P; subst; cbn [pt_attrs pt_outs app nothing] in IA, IB.
  - exfalso. destruct H as [H _]. rewrite map_not_zero in H by assumption. discriminate.
  - exfalso. match goal with H : hollow _ _ _ _ |- _ => destruct H as [H _] end. kinds.
  - exfalso. direct. rewrite map_not_zero in H1 by assumption. discriminate.
  - exfalso. kinds.
  - exfalso. direct. kinds.
  - exfalso. direct. inversion H2 as [| | |n [N|N]|n [N|N]|]; congruence.
  - exfalso. direct. kinds.
  - direct. match goal with X : HNative _ = HNative _ |- _ => injection X as -> end.
    assert (G : generic_type E (ftype f)) by (exists et; split; [right; eexists; exact U|exact I]).
    assert (c = Generic) as ->.
    { apply (class_generic_type E f c (ftype f) KC C NL); [|exact G]. apply points_self. intros y Uy. kinds. }
    rewrite one_block in IB.
    assert (NA : forall e, ~ In (IAttr (hcl_name f) e) body) by (intros e J; apply IA in J; destruct J as [J|[]]; discriminate).
    split; [|split].
    + apply (FitSpec.ff_body _ _ _ _ _ f (ftype f) _ _ body b); [intros (x & Ux); congruence|exact NA|eapply first_tag; exact IB| |exact H3|exact As].
      intros ->. exact (map_not_empty m Nl H4).
    + intros e J. destruct (NA e J).
    + intros ls b' J. right. reflexivity.
  - no_data; direct; try discriminate; kinds; destruct_sp.
  - exfalso. match goal with H : holds E _ _ _ _ _ _ |- _ => inversion H; subst end; kinds.
  - exfalso. direct. kinds.
  - exfalso. direct. match goal with H : entries_of _ _ |- _ => inversion H; subst; discriminate end.
Qed.

(* ----- nested structs ----- *)

Lemma struct_in_held : forall t v u w, struct_in E t v u w -> exists xt, FitSpec.held E t u xt /\ assignable xt t = true.
Proof.
  intros t v u w S. inversion S; subst.
  - eexists. split; [apply FitSpec.held_value; assumption|apply assign_self].
  - eexists. split; [eapply FitSpec.held_pointer; eassumption|apply assign_pointer; assumption].
Qed.
Lemma block_may_miss : forall f u, points E (ftype f) u -> block_type E u -> may_miss f.
Proof. intros f u P B. right. exists u. auto. Qed.

Lemma fit_single : forall f v u w, hcl_kind f <> "label" -> struct_in E (ftype f) v u w -> fit_struct u [] w -> fit_part f v.
Proof.
  intros f v u w K S [NM G] addr key pt body c kind P IA IB KC C NL Ek.
  destruct (struct_in_points E _ _ _ _ S) as [Pu Su].
  assert (MM : may_miss f) by (apply (block_may_miss f u Pu); left; exact Su).
  inversion P; subst; cbn [pt_attrs pt_outs app nothing] in IA, IB.
  - missing. exact MM.
  - missing. exact MM.
  - exfalso. inversion S; subst; inversion H; subst; kinds.
  - exfalso. congruence.
  - exfalso. congruence.
  - exfalso. inversion S; subst; kinds.
  - exfalso. inversion S; subst; kinds. match goal with N : number _ _ _ _ _ |- _ => inversion N; subst end; kinds.
  - exfalso. inversion S; subst; inversion H; subst; kinds.
  - exfalso. inversion S; subst; inversion H; subst; kinds.
  - exfalso. inversion S; subst; inversion H; subst; kinds.
  - exfalso. inversion S; subst; inversion H; subst; kinds.
  - no_data; inversion S; subst; inversion H; subst; kinds.
  - destruct (struct_in_holds E _ _ _ _ _ _ _ _ S H) as [-> ->].
    assert (c = Block) as ->.
    { apply (class_block_type E f c u KC C NL Pu). left. exact Su. }
    rewrite one_block in IB.
    assert (NA : forall e, ~ In (IAttr (hcl_name f) e) body) by (intros e J; apply IA in J; destruct J as [J|[]]; discriminate).
    assert (HX : exists xt, FitSpec.holds E (ftype f) u xt /\ assignable xt (ftype f) = true).
    { inversion S; subst.
      - exists (ftype f). split; [|apply assign_self]. apply FitSpec.holds_value; intro X; kinds.
      - exists (TPtr u). split; [apply FitSpec.holds_pointer; left; eexists; eassumption|apply assign_pointer; assumption]. }
    destruct HX as (xt & HX & AX). split; [|split].
    + eapply FitSpec.ff_single; [exact Pu|exact Su|exact NM|exact HX|exact AX|eapply first_tag; exact IB|].
      eapply (proj1 (G _ _ _ ltac:(eassumption))).
    + intros e J. destruct (NA e J).
    + intros ls' b' J. left. reflexivity.
  - exfalso. inversion S; subst; inversion H; subst; kinds.
  - exfalso. inversion S; subst; inversion H; subst; kinds.
Qed.

Lemma fit_slice : forall f et l, hcl_kind f <> "label" -> GoType.under E (ftype f) = TSlice et -> l <> [] ->
  (forall x, In x l -> is_zero et x = false /\ exists u w, struct_in E et x u w) ->
  (forall x u w, In x l -> struct_in E et x u w -> fit_struct u [] w) -> fit_part f (HSlice l).
Proof.
  intros f et l K U Nl S G addr key pt body c kind P IA IB KC C NL Ek.
  assert (Co : is_coll E (ftype f)) by (eexists; left; exact U).
  assert (Se : exists u xt, FitSpec.held E et u xt /\ assignable xt et = true /\ (is_struct E et \/ is_pointer E et) /\ ~ own_method u /\
    forall x u' w, In x l -> struct_in E et x u' w -> u' = u).
  { destruct l as [|x l]; [congruence|]. destruct (S x (or_introl eq_refl)) as (_ & u & w & Sx).
    destruct (struct_in_held _ _ _ _ Sx) as (xt & HX & AX). exists u, xt.
    split; [exact HX|]. split; [exact AX|]. split; [|split].
    - inversion Sx; subst; [left; assumption|right; eexists; eassumption].
    - apply (G x u w (or_introl eq_refl) Sx).
    - intros x' u' w' _ Sx'. apply struct_in_elem in Sx, Sx'. congruence. }
  destruct Se as (u & xt & HX & AX & Sp & NM & Su).
  assert (Pf : points E (ftype f) (ftype f)) by (apply points_self; intros y Uy; kinds).
  assert (BT : block_type E (ftype f)) by (right; exists et; split; [left; exact U|exact Sp]).
  assert (MM : may_miss f) by (apply (block_may_miss f _ Pf BT)).
  inversion P; subst; cbn [pt_attrs pt_outs app nothing] in IA, IB.
  - missing. exact MM.
  - missing. exact MM.
  - missing. exact MM.
  - exfalso. kinds. destruct Sp; kinds.
  - exfalso. direct. match goal with H : empty _ _ |- _ => inversion H; subst; congruence end.
  - exfalso. direct. kinds.
  - exfalso. direct. discriminate.
  - exfalso. direct. discriminate.
  - no_data; direct; try discriminate; kinds; destruct_sp.
  - exfalso. match goal with H : holds E _ _ _ _ _ _ |- _ => inversion H; subst end; kinds.
  - direct. match goal with X : HSlice _ = HSlice _ |- _ => injection X as -> end. assert (et0 = et) by congruence. subst et0.
    assert (c = Block) as -> by (exact (class_block_type E f c (ftype f) KC C NL Pf BT)).
    match goal with H : elem_blocks _ _ _ _ |- _ => rename H into HB end.
    assert (NA : forall e, ~ In (IAttr (hcl_name f) e) body).
    { intros e J. apply IA in J. exact (elem_no_attrs _ _ _ _ _ _ _ _ HB _ _ J). }
    split; [|split; [intros e J; destruct (NA e J)|intros ls b J; left; reflexivity]].
    eapply FitSpec.ff_slice; [exact U|exact HX|exact NM|exact AX|apply assign_self|].
    intros ls b J. apply RoundProofs.tag_blocks_In in J. rewrite IB in J. apply RoundProofs.tag_blocks_In in J.
    clear - HB S G Su J. induction HB as [|? ? ? ? ? ? ? IH|? ? ? ? ? ? ? IH|? ? ? a u1 w1 ls1 b1 ? ? Zx _ Hx Rx HB IH]; [destruct J| | |].
    1, 2: apply IH; [intros y Iy; apply S; right; exact Iy|intros y u' w' Iy; apply G; right; exact Iy|intros y u' w' Iy; apply Su; right; exact Iy|exact J].
    + destruct J as [J|J].
      * injection J as -> ->. destruct (S x (or_introl eq_refl)) as (_ & u0 & w0 & Sx).
        destruct (struct_in_holds E _ _ _ _ _ _ _ _ Sx Hx) as [-> ->].
        assert (u0 = u) by (apply (Su x u0 w0); [left; reflexivity|exact Sx]). subst u0.
        exact (proj1 (proj2 (G x u w0 (or_introl eq_refl) Sx) _ _ _ Rx)).
      * apply IH; [intros y Iy; apply S; right; exact Iy|intros y u' w' Iy; apply G; right; exact Iy|intros y u' w' Iy; apply Su; right; exact Iy|exact J].
  - exfalso. direct. kinds.
Qed.

Lemma fit_entries : forall f kt et m, hcl_kind f <> "label" -> GoType.under E (ftype f) = TMap kt et ->
  GoType.under E kt = TBasic "string" -> assignable string_type kt = true -> m <> [] -> NoDup (keys m) ->
  (forall k x, In (k, x) m -> exists u w, struct_in E et x u w) ->
  (forall k x u w, In (k, x) m -> struct_in E et x u w -> fit_struct u [k] w) -> fit_part f (HMap m).
Proof.
  intros f kt et m K U Uk Ak Nl ND S G addr key pt body c kind P IA IB KC C NL Ek.
  assert (Co : is_coll E (ftype f)) by (eexists; right; eexists; exact U).
  assert (Se : exists u xt, FitSpec.held E et u xt /\ assignable xt et = true /\ (is_struct E et \/ is_pointer E et) /\ ~ own_method u /\
    forall k x u' w, In (k, x) m -> struct_in E et x u' w -> u' = u).
  { destruct m as [|[k x] m]; [congruence|]. destruct (S k x (or_introl eq_refl)) as (u & w & Sx).
    destruct (struct_in_held _ _ _ _ Sx) as (xt & HX & AX). exists u, xt.
    split; [exact HX|]. split; [exact AX|]. split; [|split].
    - inversion Sx; subst; [left; assumption|right; eexists; eassumption].
    - apply (G k x u w (or_introl eq_refl) Sx).
    - intros k' x' u' w' _ Sx'. apply struct_in_elem in Sx, Sx'. congruence. }
  destruct Se as (u & xt & HX & AX & Sp & NM & Su).
  assert (Pf : points E (ftype f) (ftype f)) by (apply points_self; intros y Uy; kinds).
  assert (BT : block_type E (ftype f)) by (right; exists et; split; [right; eexists; exact U|exact Sp]).
  assert (MM : may_miss f) by (apply (block_may_miss f _ Pf BT)).
  inversion P; subst; cbn [pt_attrs pt_outs app nothing] in IA, IB.
  - missing. exact MM.
  - missing. exact MM.
  - missing. exact MM.
  - exfalso. kinds. destruct Sp; kinds.
  - exfalso. direct. kinds.
  - exfalso. direct. match goal with H : empty _ _ |- _ => inversion H; subst; congruence end.
  - exfalso. direct. discriminate.
  - exfalso. direct. discriminate.
  - no_data; direct; try discriminate; kinds; destruct_sp.
  - exfalso. match goal with H : holds E _ _ _ _ _ _ |- _ => inversion H; subst end; kinds.
  - exfalso. direct. kinds.
  - direct. match goal with H : entries_of _ _ |- _ => inversion H; subst end.
    assert (kt0 = kt /\ et0 = et) as [-> ->] by (split; congruence).
    match goal with H : entry_blocks _ _ _ _ |- _ => rename H into HB end.
    assert (c = Block) as -> by (exact (class_block_type E f c (ftype f) KC C NL Pf BT)).
    assert (NA : forall e, ~ In (IAttr (hcl_name f) e) body).
    { intros e J. apply IA in J. exact (entry_no_attrs _ _ _ _ _ _ _ _ HB _ _ J). }
    split; [|split; [intros e J; destruct (NA e J)|intros ls b J; left; reflexivity]].
    eapply FitSpec.ff_map; [exact U| |exact HX|exact NM|exact Ak|exact AX|apply assign_self|].
    { intros (x & Ux). congruence. }
    intros ls b J. apply RoundProofs.tag_blocks_In in J. rewrite IB in J. apply RoundProofs.tag_blocks_In in J.
    clear - HB S G Su J. revert its HB J. induction m as [|[k x] m IH]; intros its HB J; inversion HB; subst; [destruct J|].
    destruct J as [J|J].
    + injection J as <- <-. split; [discriminate|]. cbn [fst snd] in *. destruct (S k x (or_introl eq_refl)) as (ux & wx & Sx).
      match goal with H : holds E false et x ?a ?b ?c |- _ => destruct (struct_in_holds E _ _ _ _ _ _ _ _ Sx H) as [-> ->] end.
      assert (ux = u) by (apply (Su k x ux wx); [left; reflexivity|exact Sx]). subst ux.
      exact (proj1 (proj2 (G k x u wx (or_introl eq_refl) Sx) _ _ _ ltac:(eassumption))).
    + eapply IH; [intros k' y Iy; apply (S k'); right; exact Iy|intros k' y u' w' Iy; apply G; right; exact Iy|intros k' y u' w' Iy; apply (Su k'); right; exact Iy|eassumption|exact J].
Qed.

Lemma fit_pairs : forall f kt et m, hcl_kind f <> "label" -> GoType.under E (ftype f) = TMap kt et ->
  FitSpec.is_pair E kt -> assignable pair_type kt = true -> m <> [] ->
  (forall a b x, In ((a, b), x) m -> a <> "" /\ b <> "" /\ exists u w, struct_in E et x u w) ->
  (forall a b x u w, In ((a, b), x) m -> struct_in E et x u w -> fit_struct u [a; b] w) -> fit_part f (HMap2 m).
Proof.
  intros f kt et m K U Uk Ak Nl S G addr key pt body c kind P IA IB KC C NL Ek.
  assert (Co : is_coll E (ftype f)) by (eexists; right; eexists; exact U).
  assert (Se : exists u xt, FitSpec.held E et u xt /\ assignable xt et = true /\ (is_struct E et \/ is_pointer E et) /\ ~ own_method u /\
    forall k x u' w, In (k, x) m -> struct_in E et x u' w -> u' = u).
  { destruct m as [|[[k1 k2] x] m]; [congruence|]. destruct (S k1 k2 x (or_introl eq_refl)) as (_ & _ & u & w & Sx).
    destruct (struct_in_held _ _ _ _ Sx) as (xt & HX & AX). exists u, xt.
    split; [exact HX|]. split; [exact AX|]. split; [|split].
    - inversion Sx; subst; [left; assumption|right; eexists; eassumption].
    - apply (G k1 k2 x u w (or_introl eq_refl) Sx).
    - intros k' x' u' w' _ Sx'. apply struct_in_elem in Sx, Sx'. congruence. }
  destruct Se as (u & xt & HX & AX & Sp & NM & Su).
  assert (Pf : points E (ftype f) (ftype f)) by (apply points_self; intros y Uy; kinds).
  assert (BT : block_type E (ftype f)) by (right; exists et; split; [right; eexists; exact U|exact Sp]).
  assert (MM : may_miss f) by (apply (block_may_miss f _ Pf BT)).
  inversion P; subst; cbn [pt_attrs pt_outs app nothing] in IA, IB.
  - missing. exact MM.
  - missing. exact MM.
  - missing. exact MM.
  - exfalso. kinds. destruct Sp; kinds.
  - exfalso. direct. kinds.
  - exfalso. direct. match goal with H : empty _ _ |- _ => inversion H; subst; congruence end.
  - exfalso. direct. discriminate.
  - exfalso. direct. discriminate.
  - no_data; direct; try discriminate; kinds; destruct_sp.
  - exfalso. match goal with H : holds E _ _ _ _ _ _ |- _ => inversion H; subst end; kinds.
  - exfalso. direct. kinds.
  - direct. match goal with H : entries_of _ _ |- _ => inversion H; subst end.
    assert (kt0 = kt /\ et0 = et) as [-> ->] by (split; congruence).
    match goal with H : entry_blocks _ _ _ _ |- _ => rename H into HB end.
    assert (c = Block) as -> by (exact (class_block_type E f c (ftype f) KC C NL Pf BT)).
    assert (NA : forall e, ~ In (IAttr (hcl_name f) e) body).
    { intros e J. apply IA in J. exact (entry_no_attrs _ _ _ _ _ _ _ _ HB _ _ J). }
    split; [|split; [intros e J; destruct (NA e J)|intros ls b J; left; reflexivity]].
    eapply FitSpec.ff_pairs; [exact U|exact Uk|exact HX|exact NM|exact Ak|exact AX|apply assign_self|].
    intros ls b J. apply RoundProofs.tag_blocks_In in J. rewrite IB in J. apply RoundProofs.tag_blocks_In in J.
    clear - HB S G Su J. revert its HB J. induction m as [|[[k1 k2] x] m IH]; intros its HB J; inversion HB; subst; [destruct J|].
    destruct J as [J|J].
    + cbn [fst snd] in *. destruct (S k1 k2 x (or_introl eq_refl)) as (N1 & N2 & ux & wx & Sx).
      match goal with H : holds E false et x ?a ?b ?c |- _ => destruct (struct_in_holds E _ _ _ _ _ _ _ _ Sx H) as [-> ->] end.
      assert (ux = u) by (apply (Su (k1, k2) x ux wx); [left; reflexivity|exact Sx]). subst ux.
      rewrite (pair_labels k1 k2 N1 N2) in *.
      destruct (proj2 (G k1 k2 x u wx (or_introl eq_refl) Sx) _ _ _ ltac:(eassumption)) as [X1 X2].
      injection J as <- <-. rewrite (X2 eq_refl). split; [cbn; lia|exact X1].
    + eapply IH; [intros a' b' y Iy; apply (S a' b'); right; exact Iy|intros a' b' y u' w' Iy; apply G; right; exact Iy|intros k' y u' w' Iy; apply (Su k'); right; exact Iy|eassumption|exact J].
Qed.

(* ----- structs ----- *)

Lemma fit_struct_case : forall t key v fs L cl, GoType.under E t = TStruct fs -> ~ own_method t ->
  leaves E [] fs L -> all_fields E [] [] fs cl -> shared_fields L cl ->
  NoDup (map (fun fc => fname (fst fc)) cl) -> distinct_tags cl -> FitSpec.nests E [] depth fs ->
  (forall f p, In (f, p) L -> find_field E depth t (fname f) = Some (p, ftype f) /\ hget (zero t) p = zero (ftype f)) ->
  (forall f p, In (f, p) L -> exists n k, tag2 (ftag f) = Ok (n, k) /\ n <> "" /\ (is_label k -> k = "label")) ->
  (forall f p, In (f, p) L -> label_field E f (hget v p) /\ assignable string_type (ftype f) = true
                              \/ hcl_kind f <> "label" /\ fit_part f (hget v p)) ->
  labels_return key (label_texts v L) ->
  fit_struct t key v.
Proof.
  intros t key v fs L cl U NM Lv A S N DT Ns FF T B LR. split; [exact NM|].
  intros addr labels its Rp. inversion Rp as [? ? ? ? fs' L' ps U' Lv' Ps]; subst. assert (fs' = fs) by congruence. subst fs'.
  assert (L' = L) by (eapply leaves_unique; eassumption). subst L'.
  set (body := (flat_map pt_attrs ps ++ flat_map pt_outs ps)%list) in *.
  assert (NN : forall k, ~ null_in body k) by (eapply body_not_null; [exact attr_not_null|exact Ps]).
  assert (ND : NoDup (map (fun fp => hcl_name (fst fp)) L)).
  { apply (names_distinct L cl S N DT). intros f p I. destruct (T f p I) as (n & k & T1 & T2 & _). eauto. }
  assert (CO : forall f c, In (f, c) cl -> class_of E [] [] f c) by (apply (all_fields_class _ _ _ _ _ A)).
  assert (TG : forall f p, In (f, p) L -> exists k, tag2 (ftag f) = Ok (hcl_name f, k) /\ hcl_kind f = k /\ (is_label k -> k = "label")).
  { intros f p I. destruct (T f p I) as (n & k & T1 & T2 & T3). exists k. unfold hcl_name, hcl_kind. rewrite T1.
    destruct (string_dec n ""); [contradiction|]. auto. }
  (* each field *)
  assert (FX : forall f p c, In (f, p) L -> In (f, c) cl -> claimed c = true -> forall k, tag2 (ftag f) = Ok (hcl_name f, k) ->
    field_fits f (ftype f) (hcl_name f) k body c /\
    (forall e, In (IAttr (hcl_name f) e) body -> (c = Attr \/ c = Generic) /\ exists x, means e x) /\
    (forall ls b, In (ls, b) (tag_blocks body (hcl_name f)) -> c = Block \/ c = Generic)).
  { intros f p c I Ic Cc k Tk. destruct (body_part _ _ _ _ _ _ _ _ _ _ _ Ps I ND) as (pt & P & IA & IB). fold body in IA, IB.
    assert (TK : hcl_kind f = k /\ (is_label k -> k = "label")).
    { destruct (TG f p I) as (k' & Tk' & Ek & Lk). replace k with k' by congruence. auto. }
    destruct TK as [Ek Lk].
    pose proof (class_kind E _ _ _ _ (CO f c Ic) Tk) as CK.
    destruct (B f p I) as [[(K & Us & s & Es) As]|[K Bf]].
    - assert (c = Label) as -> by (apply CK; rewrite <- Ek, K; reflexivity).
      rewrite Es in P. pose proof (label_part E is_zero to_cty len0 zero_text _ _ _ _ _ K Us P) as X.
      assert (NX : pt_attrs pt = [] /\ pt_outs pt = []).
      { rewrite X. destruct (string_dec s ""); [split; reflexivity|].
        destruct (match key with k :: _ => if string_dec k s then true else false | [] => false end); split; reflexivity. }
      destruct NX as [NX1 NX2]. rewrite NX1, NX2 in IA. rewrite NX2 in IB. cbn [app In] in IA.
      split; [|split; [intros e J; destruct (proj1 (IA e) J)|intros ls b J; rewrite IB in J; destruct J]].
      apply FitSpec.ff_label; [exact As|]. intros e J. destruct (proj1 (IA e) J).
    - apply (Bf _ key pt body c k P IA IB (CO f c Ic) Cc); [|exact Ek].
      intros ->. apply K. rewrite Ek. apply Lk, CK. reflexivity. }
  (* every item belongs to a field *)
  assert (OW : forall i, In i body -> exists f p, In (f, p) L /\ item_name i = hcl_name f).
  { intros i I. subst body. clear - Ps I. induction Ps as [|[g q] pt L ps Hp Ps IH]; [destruct I|]. cbn [flat_map] in I.
    rewrite !in_app_iff in I. cbn [fst snd] in Hp. destruct (part_named _ _ _ _ _ _ _ _ _ Hp) as [A1 A2].
    destruct I as [[I|I]|[I|I]].
    - exists g, q. split; [left; reflexivity|exact (A1 i I)].
    - destruct IH as (f & p & X1 & X2); [apply in_or_app; left; exact I|]. exists f, p. split; [right; exact X1|exact X2].
    - exists g, q. split; [left; reflexivity|exact (A2 i I)].
    - destruct IH as (f & p & X1 & X2); [apply in_or_app; right; exact I|]. exists f, p. split; [right; exact X1|exact X2]. }
  assert (CL : forall f p, In (f, p) L -> exists c k, In (f, c) cl /\ claimed c = true /\ tag2 (ftag f) = Ok (hcl_name f, k)).
  { intros f p I. destruct (shared_in _ _ S f p I) as (c & Ic & Cc). destruct (TG f p I) as (k & Tk & _). eauto 6. }
  split.
  2: { intro Lk. destruct key as [|k1 [|k2 [|k3 key]]]; try discriminate. cbn in LR.
    destruct (labels_kept E is_zero to_cty len0 zero_text _ _ _ _ _ Ps) as (ss & E1 & ->).
    - intros f p I. destruct (B f p I) as [[X _]|[X _]]; auto.
    - rewrite LR in E1. destruct ss; [reflexivity|discriminate]. }
  apply (FitSpec.fits_struct _ _ _ _ _ t fs [] cl); [exact U| |exact A|exact N|exact DT|exact Ns| | | |].
  - intro k. split; [intros []|intro X; destruct (NN k X)].
  - intros k e I. destruct (OW _ I) as (f & p & If & Ek). cbn [item_name] in Ek. subst k.
    destruct (CL f p If) as (c & kd & Ic & Cc & Tk). destruct (FX f p c If Ic Cc kd Tk) as (_ & X & _). apply (X e I).
  - intros k e I _. destruct (OW _ I) as (f & p & If & Ek). cbn [item_name] in Ek. subst k.
    destruct (CL f p If) as (c & kd & Ic & Cc & Tk). destruct (FX f p c If Ic Cc kd Tk) as (_ & X & _). destruct (X e I) as [X1 _].
    exists f, c, kd. auto.
  - intros k ls b I. destruct (OW _ I) as (f & p & If & Ek). cbn [item_name] in Ek. subst k.
    destruct (CL f p If) as (c & kd & Ic & Cc & Tk). destruct (FX f p c If Ic Cc kd Tk) as (_ & _ & X).
    exists f, c, kd. split; [exact Ic|]. split; [exact Tk|]. apply (X ls b). apply RoundProofs.tag_blocks_In. exact I.
  - intros f c tag kd Ic Cc Tk.
    assert (If : exists p, In (f, p) L).
    { assert (X : In f (map fst L)).
      { unfold shared_fields in S. rewrite S. change f with (fst (f, c)). apply List.in_map. apply filter_In. auto. }
      apply in_map_iff in X. destruct X as ([g p] & Eg & I). cbn in Eg. subst g. eauto. }
    destruct If as (p & If). exists p, (ftype f). split; [apply FF; exact If|].
    destruct (TG f p If) as (k' & Tk' & _). assert (tag = hcl_name f) by congruence. subst tag.
    destruct (FX f p c If Ic Cc kd Tk) as (X & _). exact X.
Qed.

Theorem returns_fits : forall t key v, returns t key v -> forall addr labels its, represents addr t v key labels its -> fits t its.
Proof.
  intros t key v R. enough (X : fit_struct t key v) by (intros addr labels its Rp; apply (proj2 X addr labels its Rp)). revert t key v R.
  apply (returns_ind2 E depth is_zero zero to_cty len0 assignable decode_attr own_method fit_struct
    (fun f x => label_field E f x /\ assignable string_type (ftype f) = true \/ hcl_kind f <> "label" /\ fit_part f x)); intros.
  - eapply fit_struct_case; eassumption.
  - left. split; [|assumption]. split; [assumption|]. split; [assumption|]. eauto.
  - right. split; [assumption|]. apply fit_zero; assumption.
  - right. split; [unfold attr_kind in *; intuition congruence|]. apply fit_attr; assumption.
  - right. split; [unfold attr_kind in *; intuition congruence|]. eapply fit_number; eassumption.
  - right. split; [assumption|]. eapply fit_list; eassumption.
  - right. split; [assumption|]. eapply fit_map; eassumption.
  - right. split; [assumption|]. eapply fit_single; eassumption.
  - right. split; [assumption|]. eapply fit_slice; eassumption.
  - right. split; [assumption|]. eapply fit_entries; eassumption.
  - right. split; [assumption|]. eapply fit_pairs; eassumption.
Qed.
End Fits.
