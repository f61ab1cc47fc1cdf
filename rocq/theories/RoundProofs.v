(* Structs come back from their HCL text. *)

From Verif Require Import Base GoType DetModel CtyModel HclModel HclSpec HclDecode HclParse TagModel StructModel StructParse
  StructSpec StructFields StructRef StructResult StructBlock StructSound MarshalSpec RoundSpec.
From Verif Require FitSpec PropsStruct.
From Coq Require Import Lia.
Local Open Scope nat_scope.

Scheme returns_ind2 := Minimality for returns Sort Prop
  with field_returns_ind2 := Minimality for field_returns Sort Prop.
Combined Scheme returns_mut from returns_ind2, field_returns_ind2.

(* ----- values of expressions ----- *)

Lemma means_cty : forall e c, means e c -> expr_cty e = Ok c.
Proof.
  fix IH 1. intros e c M. destruct e as [z|dm dk|s|b| |f|x|l|m]; inversion M; subst; try reflexivity.
  - cbn [expr_cty]. match goal with H : Forall2 means l ?u |- _ =>
      assert (X : (fix go l := match l with [] => Ok [] | e :: l' => do x <- expr_cty e; do r <- go l'; Ok (x :: r) end) l = Ok u) end.
    { clear M. revert u H0. induction l as [|e l IHl]; intros u H; inversion H; subst; [reflexivity|].
      rewrite (IH e _ H2). cbn [bindr]. rewrite (IHl _ H4). reflexivity. }
    rewrite X. reflexivity.
  - cbn [expr_cty]. match goal with H : Forall2 _ m ?u |- _ =>
      assert (X : (fix go m := match m with [] => Ok [] | (k, e) :: m' => do x <- expr_cty e; do r <- go m'; Ok ((k, x) :: r) end) m = Ok u) end.
    { clear M. revert u H0. induction m as [|[k e] m IHm]; intros u H; inversion H as [|? [k' x] ? ? [H1 H2] H3]; subst; [reflexivity|].
      cbn [fst snd] in *. subst k'. rewrite (IH e _ H2). cbn [bindr]. rewrite (IHm _ H3). reflexivity. }
    rewrite X. reflexivity.
Qed.
Lemma means_unique : forall e c d, means e c -> means e d -> c = d.
Proof. intros e c d H1 H2. apply means_cty in H1, H2. congruence. Qed.

(* ----- the items of one field ----- *)

Definition item_name (i : item) : string := match i with IAttr k _ => k | IBlock k _ _ => k end.
Definition named_all (name : string) (its : list item) : Prop := forall i, In i its -> item_name i = name.

Section Round.
Variable E : env.
Variable depth : nat.
Variable type_string : gtype -> string.
Variable zero : gtype -> hval.
Variable assignable : gtype -> gtype -> bool.
Variable decode_attr : gtype -> cval -> result hval.
Variable hook : gtype -> option (string -> list string -> hval -> hval * result unit).
Variable is_zero : gtype -> hval -> bool.
Variable to_cty : gtype -> hval -> result cval.
Variable len0 : hval -> bool.
Notation decode := (unmarshal_spec E depth type_string zero assignable decode_attr hook).
Notation own_method := (fun t => hook t <> None).
Notation returns := (returns E depth is_zero zero to_cty len0 assignable decode_attr own_method).
Notation field_returns := (field_returns E depth is_zero zero to_cty len0 assignable decode_attr own_method).
Notation alike := (alike E is_zero zero).
Notation represents := (represents E is_zero to_cty len0).
Notation field_part := (field_part E is_zero to_cty len0).
Notation elem_blocks := (elem_blocks E is_zero to_cty len0).
Notation entry_blocks := (entry_blocks E is_zero to_cty len0).
Notation ref_ok := (ref_ok E type_string zero).
Notation described := (PropsStruct.described E).
Notation field_at := (PropsStruct.field_at E depth).

Hypothesis distinct : distinct_names E type_string.
Hypothesis pointer_not_nil : forall t u w, is_zero t (HPtr u w) = false.
Hypothesis list_not_zero : forall t l, l <> [] -> is_coll E t -> is_zero t (HNative (NList l)) = false.
Hypothesis map_not_zero : forall t m, m <> [] -> is_coll E t -> is_zero t (HNative (NMap m)) = false.
Hypothesis zero_text : forall t s, under E t = TBasic "string" -> is_zero t (HText s) = true <-> s = "".
Hypothesis text_zero : forall t, under E t = TBasic "string" -> zero t = HText "".
Hypothesis attr_not_null : forall t v c, simple E t \/ (exists et, has_elem E t et /\ simple E et) ->
  is_zero t v = false -> to_cty t v = Ok c -> c <> CNull.
Hypothesis attr_back : forall t v c x, simple E t \/ (exists et, has_elem E t et /\ simple E et) ->
  to_cty t v = Ok c -> decode_attr t c = Ok x -> alike t v x.
Hypothesis ptr_back : forall t u w c x, under E t = TPtr u -> simple E u -> to_cty u w = Ok c -> decode_attr t c = Ok x ->
  exists y, x = HPtr u y /\ alike u w y.

Lemma blocks_named : forall name et l its, elem_blocks name et l its -> named_all name its.
Proof.
  intros name et l its H. induction H; intros i I; [destruct I|auto|auto|destruct I as [<-|I]; [reflexivity|auto]].
Qed.
Lemma entries_named : forall name et m its, entry_blocks name et m its -> named_all name its.
Proof. intros name et m its H. induction H; intros i I; [destruct I|destruct I as [<-|I]; [reflexivity|auto]]. Qed.
Lemma part_named : forall addr key f v p, field_part addr key f v p ->
  named_all (hcl_name f) (pt_attrs p) /\ named_all (hcl_name f) (pt_outs p).
Proof.
  intros addr key f v p H. inversion H; subst; cbn [pt_attrs pt_outs]; split;
    try (intros i I; destruct I as [<-|[]]; reflexivity); try (intros i []);
    first [eapply blocks_named; eassumption|eapply entries_named; eassumption].
Qed.
Lemma part_labels : forall addr key f v p, field_part addr key f v p -> hcl_kind f <> "label" -> pt_labels p = [].
Proof. intros addr key f v p H N. inversion H; subst; try reflexivity; contradiction. Qed.

(* ----- the context of a field ----- *)

Definition no_items (body : list item) (tag : string) : Prop :=
  (forall e, ~ In (IAttr tag e) body) /\ tag_blocks body tag = [].

Section Field.
Variables (t : gtype) (text : string) (body : list item) (cl : list (gfield * cls)) (ref ref' : hrefmap)
  (labels : list string) (v0 v' : hval).
Hypothesis D : described t text None body cl.
Hypothesis R : decode None ref labels t v0 text = (v', ref', Ok tt).
Hypothesis RO : ref_ok ref.

Lemma no_user : user_fields E type_string (fields_of None).
Proof. intros c (name & x & s & [] & _). Qed.
Lemma points_ex : forall u, exists w, points E u w.
Proof.
  intro u. destruct (GoType.under E u) as [|w| | | | | |] eqn:U; try (exists u; apply points_self; congruence).
  exists w. apply points_ptr. exact U.
Qed.
Lemma tag_blocks_In : forall tag ls b, In (ls, b) (tag_blocks body tag) <-> In (IBlock tag ls b) body.
Proof.
  intros tag ls b. unfold tag_blocks. rewrite in_flat_map. split.
  - intros ([k e|k ls' b'] & I & J); [destruct J|]. destruct (string_dec k tag) as [->|]; [|destruct J].
    destruct J as [J|[]]. injection J as -> ->. exact I.
  - intro I. eexists. split; [exact I|]. cbn. destruct (string_dec tag tag); [left; reflexivity|contradiction].
Qed.

Lemma unmentioned : forall f c tag p ft, field_at t cl f c tag p ft -> claimed c = true -> c <> Label ->
  no_items body tag -> hget v' p = hget v0 p.
Proof.
  intros f c tag p ft F C NL [NA NB]. destruct c; try discriminate; [contradiction|..].
  - destruct (PropsStruct.C55_attribute_field _ _ _ _ _ _ _ _ _ _ _ _ _ _ _ _ _ _ _ _ _ D R F) as [(e & x & I & _)|(_ & _ & X)];
      [destruct (NA e I)|exact X].
  - destruct (points_ex (ftype f)) as (st & P).
    pose proof (PropsStruct.C58_own_type _ _ _ _ _ _ _ distinct _ _ _ _ _ _ _ _ _ _ _ _ _ _ _ st RO no_user D R F (stands_blocks _ _ _ NA) (fun x => x) P) as X.
    rewrite NB in X. exact X.
  - destruct (PropsStruct.C57_generic_field _ _ _ _ _ _ _ _ _ _ _ _ _ _ _ _ _ _ _ _ _ D R F)
      as [(e & n & I & _)|(_ & [(ls & b & n & (pre & post & X & _) & _)|(_ & X)])]; [destruct (NA e I)| |exact X].
    assert (I : In (ls, b) (tag_blocks body tag)) by (apply tag_blocks_In; rewrite X; apply in_elt).
    rewrite NB in I. destruct I.
Qed.

(* The class of a field is that of its type. *)
Hypothesis NN : forall k, ~ null_in body k.
Lemma class_here : forall f c tag p ft, field_at t cl f c tag p ft -> class_of E [] [] f c.
Proof.
  intros f c tag p ft (I & _). destruct D as (fs & nulls & _ & _ & N & A & _).
  assert (nulls = []) as ->.
  { destruct nulls as [|k nulls]; [reflexivity|]. destruct (NN k). apply N. left. reflexivity. }
  exact (all_fields_class _ _ _ _ _ A _ _ I).
Qed.
Lemma class_attr_type : forall f c, class_of E [] [] f c -> claimed c = true -> c <> Label ->
  (forall u, points E (ftype f) u -> ~ block_type E u /\ ~ generic_type E u) -> c = Attr.
Proof.
  intros f c K C NL T. inversion K; subst; try discriminate; try contradiction; try reflexivity;
    match goal with P : points E _ ?u |- _ => destruct (T u P) as [T1 T2]; contradiction end.
Qed.
Lemma class_block_type : forall f c u, class_of E [] [] f c -> claimed c = true -> c <> Label ->
  points E (ftype f) u -> block_type E u -> c = Block.
Proof.
  intros f c u K C NL P B. inversion K; subst; try discriminate; try contradiction; try reflexivity;
    match goal with P' : points E _ ?u' |- _ => assert (u' = u) by (eapply points_unique; eassumption); subst u' end;
    [|contradiction]. exfalso. eapply block_not_generic; eassumption.
Qed.
Lemma class_generic_type : forall f c u, class_of E [] [] f c -> claimed c = true -> c <> Label ->
  points E (ftype f) u -> generic_type E u -> c = Generic.
Proof.
  intros f c u K C NL P B. inversion K; subst; try discriminate; try contradiction; try reflexivity;
    match goal with P' : points E _ ?u' |- _ => assert (u' = u) by (eapply points_unique; eassumption); subst u' end;
    [|contradiction]. exfalso. eapply block_not_generic; eassumption.
Qed.
Lemma simple_attr : forall u, simple E u \/ (exists et, has_elem E u et /\ simple E et) ->
  forall w, points E u w -> ~ block_type E w /\ ~ generic_type E w.
Proof.
  intros u S w P. assert (u = w).
  { destruct S as [(x & U & S)|(et & [U|(kt & U)] & _)]; inversion P; subst; try reflexivity;
      match goal with H : GoType.under E u = TPtr _ |- _ => rewrite H in * end; try contradiction; discriminate. }
  subst w. clear P. split.
  - intros [(gs & U)|(et & H1 & H2)].
    + destruct S as [(x & <- & S)|(et & [U'|(kt & U')] & _)]; rewrite U in *; [contradiction|discriminate|discriminate].
    + assert (X : simple E et).
      { destruct S as [(x & <- & S)|(et' & H & S)].
        - destruct H1 as [U|(kt & U)]; rewrite U in S; contradiction.
        - destruct H1 as [U|(kt & U)], H as [U'|(kt' & U')]; rewrite U in U'; try discriminate; injection U'; intros; subst; exact S. }
      destruct X as (x & <- & X). destruct H2 as [(gs & U)|(y & U)]; rewrite U in X; contradiction.
  - intros (et & H1 & (ms & H2)). assert (X : simple E et).
    { destruct S as [(x & <- & S)|(et' & H & S)].
      - destruct H1 as [U|(kt & U)]; rewrite U in S; contradiction.
      - destruct H1 as [U|(kt & U)], H as [U'|(kt' & U')]; rewrite U in U'; try discriminate; injection U'; intros; subst; exact S. }
    destruct X as (x & <- & X). rewrite H2 in X. contradiction.
Qed.
End Field.

(* ----- fields ----- *)

Definition back (f : gfield) (x : hval) : Prop := forall addr key pt t text body cl ref ref' labels v0 v' c p,
  field_part addr key f x pt ->
  (forall e, In (IAttr (hcl_name f) e) body <-> In (IAttr (hcl_name f) e) (pt_attrs pt ++ pt_outs pt)) ->
  tag_blocks body (hcl_name f) = tag_blocks (pt_outs pt) (hcl_name f) ->
  described t text None body cl -> decode None ref labels t v0 text = (v', ref', Ok tt) -> ref_ok ref ->
  (forall k, ~ null_in body k) ->
  field_at t cl f c (hcl_name f) p (ftype f) -> claimed c = true -> c <> Label -> hget v0 p = zero (ftype f) ->
  alike (ftype f) x (hget v' p).

(* The struct half. *)
Definition struct_back (t : gtype) (key : list string) (v : hval) : Prop :=
  forall addr labels its text ref ref' v0 v', represents addr t v key labels its -> parse_config text = Ok its ->
  ref_ok ref -> (forall p, hget v0 p = hget (zero t) p) ->
  decode None ref (key ++ labels)%list t v0 text = (v', ref', Ok tt) -> alike t v v'.

Lemma absent_back : forall f x t text body cl ref ref' labels v0 v' c p,
  (forall e, In (IAttr (hcl_name f) e) body <-> In (IAttr (hcl_name f) e) []) ->
  tag_blocks body (hcl_name f) = [] ->
  described t text None body cl -> decode None ref labels t v0 text = (v', ref', Ok tt) -> ref_ok ref ->
  field_at t cl f c (hcl_name f) p (ftype f) -> claimed c = true -> c <> Label -> hget v0 p = zero (ftype f) ->
  is_zero (ftype f) x = true -> alike (ftype f) x (hget v' p).
Proof.
  intros f x t text body cl ref ref' labels v0 v' c p IA IB D R RO F C NL Z0 Z.
  assert (X : hget v' p = hget v0 p).
  { eapply (unmentioned t text body cl ref ref' labels v0 v' D R RO); [exact F|exact C|exact NL|].
    split; [intros e I; apply IA in I; exact I|exact IB]. }
  rewrite X, Z0. apply al_zero. exact Z.
Qed.
Ltac absent := eapply absent_back; [eassumption|eassumption|eassumption|eassumption|eassumption|eassumption|eassumption|eassumption|eassumption|].

(* Types of different kinds. *)
Ltac kinds := repeat match goal with
  | H : has_elem E _ _ |- _ => destruct H as [H|(? & H)]
  | H : is_struct E _ |- _ => destruct H as (? & H)
  | H : is_interface E _ |- _ => destruct H as (? & H)
  | H : is_pointer E _ |- _ => destruct H as (? & H)
  | H : is_coll E _ |- _ => destruct H as (? & H)
  | H : is_coll E _ \/ is_interface E _ |- _ => destruct H as [H|H]
  | H : simple E _ |- _ => let u := fresh "u" in destruct H as (u & <- & H)
  | H : _ \/ (exists et, has_elem E _ et /\ simple E et) |- _ => destruct H as [H|(? & H & ?)]
  | H : attr_type E len0 _ _ |- _ => destruct H as [H|(? & H & ? & ?)]
  | H : GoType.under E ?t = _, H' : GoType.under E ?t = _ |- _ => rewrite H in H'; first [discriminate H'|injection H'; clear H'; intros; subst]
  | H : GoType.under E ?t = _, H' : match GoType.under E ?t with _ => _ end |- _ => rewrite H in H'; try contradiction
  end.
Ltac destruct_sp := try (match goal with H : is_struct E _ \/ is_pointer E _ |- _ => destruct H; kinds end).
Ltac no_data := exfalso; match goal with H : data_field _ _ _ _ _ |- _ => inversion H; subst end.
(* The value is reached through no pointer. *)
Lemma through_self : forall t v u w, through E t v u w -> (forall u', GoType.under E t <> TPtr u') -> u = t /\ w = v.
Proof. intros t v u w H N. destruct H; [auto|]. destruct (N u H). Qed.
Ltac direct := match goal with
  | H : through E (ftype ?f) ?v ?t ?w |- _ =>
    let X := fresh in assert (X : t = ftype f /\ w = v) by (apply (through_self _ _ _ _ H); intros ? ?; kinds);
    destruct X as [X ?]; subst t; try subst w
  end.

Lemma back_zero : forall f v, hcl_kind f <> "label" -> is_zero (ftype f) v = true -> ~ is_struct E (ftype f) -> back f v.
Proof.
  intros f v K Z NS addr key pt t text body cl ref ref' labels v0 v' c p P IA IB D R RO NN F C NL Z0.
  assert (T : forall t w, through E (ftype f) v t w -> t = ftype f /\ w = v).
  { intros t' w H. destruct H as [t' v'' _|t' u u' w H1 H2]; [auto|]. rewrite pointer_not_nil in Z. discriminate. }
  inversion P; subst; cbn [pt_attrs pt_outs app] in IA, IB; try (absent; exact Z); try congruence;
    try (match goal with H : through E (ftype f) _ _ _ |- _ => destruct (T _ _ H); subst; congruence end).
  - match goal with H : through E (ftype f) _ _ _ |- _ => destruct (T _ _ H) as [-> <-] end.
    rewrite list_not_zero in Z; [discriminate|assumption|]. eexists. left. eassumption.
  - match goal with H : through E (ftype f) _ _ _ |- _ => destruct (T _ _ H) as [-> <-] end.
    rewrite map_not_zero in Z; [discriminate|assumption|]. eexists. right. eexists. eassumption.
  - match goal with H : through E (ftype f) _ _ _ |- _ => destruct (T _ _ H) as [-> <-] end.
    match goal with H : data_field _ _ _ _ _ |- _ => inversion H; subst; congruence end.
  - match goal with H : _ \/ (_ /\ _) |- _ => destruct H as [H|[H _]]; [congruence|contradiction] end.
Qed.

Lemma back_attr : forall f v, attr_kind (hcl_kind f) -> simple E (ftype f) \/ (exists et, has_elem E (ftype f) et /\ simple E et) ->
  ~ empty len0 v -> back f v.
Proof.
  intros f v K S NE addr key pt t text body cl ref ref' labels v0 v' c p P IA IB D R RO NN F C NL Z0.
  inversion P; subst; cbn [pt_attrs pt_outs app] in IA, IB.
  - absent. match goal with H : absent _ _ _ _ _ |- _ => apply H end.
  - exfalso. match goal with H : hollow _ _ _ _ |- _ => destruct H as [H _] end. kinds.
  - absent. direct. assumption.
  - exfalso. unfold attr_kind in K. rewrite H in K. intuition discriminate.
  - exfalso. unfold attr_kind in K. rewrite H in K. intuition discriminate.
  - assert (c = Attr) as ->.
    { apply (class_attr_type f c (class_here _ _ _ _ D NN _ _ _ _ _ F) C NL). apply simple_attr. exact S. }
    destruct (PropsStruct.C55_attribute_field _ _ _ _ _ _ _ _ _ _ _ _ _ _ _ _ _ _ _ _ _ D R F) as [(e' & x & I & M & X)|(N & _)].
    + apply IA in I. destruct I as [I|[]]. injection I as <-.
      rewrite (means_unique _ _ _ M H3) in X. exact (attr_back _ _ _ _ S H2 X).
    + exfalso. apply (N e). apply IA. left. reflexivity.
  - exfalso. kinds.
  - exfalso. direct. contradiction.
  - exfalso. direct. contradiction.
  - exfalso. direct. kinds.
  - exfalso. direct. kinds.
  - no_data; direct; try discriminate; kinds; destruct_sp.
  - exfalso. match goal with H : holds E _ _ _ _ _ _ |- _ => inversion H; subst end; kinds.
  - exfalso. direct. destruct S as [S|(et' & [He|(kt & He)] & S)]; [kinds| |kinds].
    assert (et' = et) by congruence. subst et'. contradiction.
  - exfalso. direct. destruct S as [S|(et' & [He|(kt' & He)] & S)]; [kinds|kinds|].
    assert (et' = et) by congruence. subst et'.
    match goal with H : entry_blocks _ _ _ _ |- _ => inversion H; subst; [congruence|] end.
    match goal with H : holds E _ _ _ _ _ _ |- _ => inversion H; subst end; kinds.
Qed.

Lemma back_number : forall f u w, hcl_kind f <> "label" -> GoType.under E (ftype f) = TPtr u -> simple E u -> back f (HPtr u w).
Proof.
  intros f u w K U S addr key pt t text body cl ref ref' labels v0 v' c p P IA IB D R RO NN F C NL Z0.
  inversion P; subst; cbn [pt_attrs pt_outs app] in IA, IB.
  - exfalso. destruct H as [H _]. rewrite pointer_not_nil in H. discriminate.
  - exfalso. match goal with H : hollow _ _ _ _ |- _ => destruct H as [H _] end. kinds.
  - exfalso. inversion H; subst; kinds.
  - exfalso. kinds.
  - assert (c = Attr) as ->.
    { apply (class_attr_type f c (class_here _ _ _ _ D NN _ _ _ _ _ F) C NL). intros x Px.
      assert (x = u) by (inversion Px; congruence). subst x. apply (simple_attr u (or_introl S)).
      apply points_self. intros y Uy. kinds. }
    destruct (PropsStruct.C55_attribute_field _ _ _ _ _ _ _ _ _ _ _ _ _ _ _ _ _ _ _ _ _ D R F) as [(e' & x & I & M & X)|(N & _)].
    + apply IA in I. destruct I as [I|[]]. injection I as <-. assert (u0 = u) by congruence. subst u0.
      assert (x = c0) by (apply (means_unique e); assumption). subst x.
      assert (TC : to_cty u w = Ok c0) by (match goal with N : number _ _ _ _ _ |- _ => inversion N; subst; assumption end).
      destruct (ptr_back _ _ _ _ _ U S TC X) as (y & -> & A). apply al_ptr; assumption.
    + exfalso. apply (N e). apply IA. left. reflexivity.
  - exfalso. inversion H; subst; kinds.
  - exfalso. inversion H; subst; kinds.
  - exfalso. inversion H; subst; kinds.
  - exfalso. inversion H; subst; kinds.
  - no_data; inversion H; subst; kinds.
  - exfalso. inversion H; subst; kinds.
  - exfalso. inversion H; subst; kinds.
  - exfalso. inversion H; subst; kinds.
Qed.

Lemma back_list : forall f et l, hcl_kind f <> "label" -> GoType.under E (ftype f) = TSlice et -> is_interface E et -> l <> [] ->
  back f (HNative (NList l)).
Proof.
  intros f et l K U I Nl addr key pt t text body cl ref ref' labels v0 v' c p P IA IB D R RO NN F C NL Z0.
  assert (Co : is_coll E (ftype f)) by (eexists; left; exact U).
  inversion P; subst; cbn [pt_attrs pt_outs app] in IA, IB.
  - exfalso. destruct H as [H _]. rewrite list_not_zero in H by assumption. discriminate.
  - exfalso. match goal with H : hollow _ _ _ _ |- _ => destruct H as [H _] end. kinds.
  - exfalso. direct. rewrite list_not_zero in H1 by assumption. discriminate.
  - exfalso. kinds.
  - exfalso. direct. inversion H2 as [| | |n [N|N]|n [N|N]|]; congruence.
  - exfalso. direct. kinds.
  - direct. match goal with X : HNative _ = HNative _ |- _ => injection X as -> end.
    assert (G : generic_type E (ftype f)) by (exists et; split; [left; exact U|exact I]).
    assert (c = Generic) as ->.
    { apply (class_generic_type f c (ftype f) (class_here _ _ _ _ D NN _ _ _ _ _ F) C NL); [|exact G].
      apply points_self. intros y Uy. kinds. }
    destruct (PropsStruct.C57_generic_field _ _ _ _ _ _ _ _ _ _ _ _ _ _ _ _ _ _ _ _ _ D R F)
      as [(e' & n & J & V & X & _)|(N & _)].
    + apply IA in J. destruct J as [J|[]]. injection J as <-. rewrite X. apply al_generic. exact (H4 n V).
    + exfalso. apply (N e). apply IA. left. reflexivity.
  - exfalso. direct. kinds.
  - no_data; direct; try discriminate; kinds; destruct_sp.
  - exfalso. match goal with H : holds E _ _ _ _ _ _ |- _ => inversion H; subst end; kinds.
  - exfalso. direct. discriminate.
  - exfalso. direct. kinds.
Qed.

Lemma first_in_blocks : forall body tag ls b lbs ls' b', tag_blocks body tag = (ls, b) :: lbs -> first_block body tag ls' b' ->
  ls' = ls /\ b' = b.
Proof.
  intros body tag ls b lbs ls' b' H (pre & post & -> & N).
  assert (X : tag_blocks pre tag = []).
  { destruct (tag_blocks pre tag) as [|[l1 b1] r] eqn:T; [reflexivity|]. exfalso. apply (N l1 b1).
    apply (tag_blocks_In pre). rewrite T. left. reflexivity. }
  unfold tag_blocks in *. rewrite flat_map_app, X in H. cbn in H. destruct (string_dec tag tag); [|contradiction].
  injection H. auto.
Qed.
Lemma back_map : forall f kt et m, hcl_kind f <> "label" -> GoType.under E (ftype f) = TMap kt et -> is_interface E et -> m <> [] ->
  back f (HNative (NMap m)).
Proof.
  intros f kt et m K U I Nl addr key pt t text body cl ref ref' labels v0 v' c p P IA IB D R RO NN F C NL Z0.
  assert (Co : is_coll E (ftype f)) by (eexists; right; eexists; exact U).
  inversion P; subst; cbn [pt_attrs pt_outs app] in IA, IB.
  - exfalso. destruct H as [H _]. rewrite map_not_zero in H by assumption. discriminate.
  - exfalso. match goal with H : hollow _ _ _ _ |- _ => destruct H as [H _] end. kinds.
  - exfalso. direct. rewrite map_not_zero in H1 by assumption. discriminate.
  - exfalso. kinds.
  - exfalso. direct. kinds.
  - exfalso. direct. inversion H2 as [| | |n [N|N]|n [N|N]|]; congruence.
  - exfalso. direct. kinds.
  - direct. match goal with X : HNative _ = HNative _ |- _ => injection X as -> end.
    assert (G : generic_type E (ftype f)) by (exists et; split; [right; eexists; exact U|exact I]).
    assert (c = Generic) as ->.
    { apply (class_generic_type f c (ftype f) (class_here _ _ _ _ D NN _ _ _ _ _ F) C NL); [|exact G].
      apply points_self. intros y Uy. kinds. }
    assert (TB : tag_blocks [IBlock (hcl_name f) [] b] (hcl_name f) = [([], b)]).
    { cbn. destruct (string_dec (hcl_name f) (hcl_name f)); [reflexivity|contradiction]. }
    rewrite TB in IB.
    destruct (PropsStruct.C57_generic_field _ _ _ _ _ _ _ _ _ _ _ _ _ _ _ _ _ _ _ _ _ D R F)
      as [(e' & n & J & _)|(_ & [(ls & b' & n & FB & V & X)|(N & _)])].
    + exfalso. apply IA in J. destruct J as [J|[]]. discriminate.
    + destruct (first_in_blocks _ _ _ _ _ _ _ IB FB) as [-> ->]. rewrite X. apply al_generic. exact (H4 n V).
    + exfalso. apply (N [] b). apply tag_blocks_In. rewrite IB. left. reflexivity.
  - no_data; direct; try discriminate; kinds; destruct_sp.
  - exfalso. match goal with H : holds E _ _ _ _ _ _ |- _ => inversion H; subst end; kinds.
  - exfalso. direct. kinds.
  - exfalso. direct. match goal with H : entries_of _ _ |- _ => inversion H; subst; discriminate end.
Qed.

(* ----- nested structs ----- *)

Definition good_struct (t : gtype) (key : list string) (v : hval) : Prop := hook t = None /\ struct_back t key v.
Notation fresh_element := (fresh_element E depth type_string zero assignable decode_attr hook).

Lemma fresh_back : forall u key w a ls b ref text y, good_struct u key w -> represents a u w key ls b -> ref_ok ref ->
  fresh_element ref text u ((key ++ ls)%list, b) y -> alike u w y.
Proof.
  intros u key w a ls b ref text y [Hk G] Rp RO (text' & _ & Pt & Fr). cbn [fst snd] in *.
  inversion Fr as [x r _ Dx|h x z Hh _]; subst; [|congruence].
  apply (G a ls b text' ref r (clone_value zero u (zero u)) y Rp Pt RO); [|exact Dx].
  intro p. unfold clone_value. cbn [hget]. destruct (exported_path p); reflexivity.
Qed.
Lemma struct_in_holds : forall t v u w addr a u' w', struct_in E t v u w -> holds E addr t v a u' w' -> u' = u /\ w' = w.
Proof.
  intros t v u w addr a u' w' S H. inversion S; subst; inversion H; subst; try (split; reflexivity); kinds.
Qed.
Lemma struct_in_points : forall t v u w, struct_in E t v u w -> points E t u /\ is_struct E u.
Proof.
  intros t v u w S. inversion S; subst; split; try assumption; [apply points_self; intros y Uy; kinds|apply points_ptr; assumption].
Qed.
Lemma struct_in_stored : forall t v u w y, struct_in E t v u w -> alike u w y -> alike t v (snd (stored E t u y)).
Proof.
  intros t v u w y S A. unfold stored, by_pointer. inversion S; subst.
  - destruct H as (fs & U). rewrite U. exact A.
  - rewrite H. cbn [snd]. apply al_ptr; assumption.
Qed.
Lemma struct_in_elem : forall t v u w, struct_in E t v u w -> elem_class E t = Registered u.
Proof.
  intros t v u w S. unfold elem_class. inversion S; subst.
  - destruct H as (fs & U). rewrite U. reflexivity.
  - rewrite H. reflexivity.
Qed.

Lemma one_block : forall name ls b, tag_blocks [IBlock name ls b] name = [(ls, b)].
Proof. intros name ls b. cbn. destruct (string_dec name name); [reflexivity|contradiction]. Qed.

Lemma back_struct : forall f v u w, hcl_kind f <> "label" -> struct_in E (ftype f) v u w -> good_struct u [] w -> back f v.
Proof.
  intros f v u w K S G addr key pt t text body cl ref ref' labels v0 v' c p P IA IB D R RO NN F C NL Z0.
  destruct (struct_in_points _ _ _ _ S) as [Pu Su].
  inversion P; subst; cbn [pt_attrs pt_outs app] in IA, IB.
  - absent. match goal with H : absent _ _ _ _ _ |- _ => apply H end.
  - exfalso. match goal with H : hollow _ _ _ _ |- _ => destruct H as [H _] end. inversion S; subst; kinds.
  - exfalso. inversion S; subst; inversion H; subst; kinds.
  - exfalso. congruence.
  - exfalso. congruence.
  - exfalso. inversion S; subst; kinds.
  - exfalso. inversion S; subst; kinds. match goal with N : number _ _ _ _ _ |- _ => inversion N; subst end; kinds.
  - exfalso. inversion S; subst; inversion H; subst; kinds.
  - exfalso. inversion S; subst; inversion H; subst; kinds.
  - exfalso. inversion S; subst; inversion H; subst; kinds.
  - exfalso. inversion S; subst; inversion H; subst; kinds.
  - no_data; inversion S; subst; inversion H; subst; kinds.
  - destruct (struct_in_holds _ _ _ _ _ _ _ _ S H) as [-> ->].
    assert (c = Block) as ->.
    { apply (class_block_type f c u (class_here _ _ _ _ D NN _ _ _ _ _ F) C NL Pu). left. exact Su. }
    rewrite one_block in IB.
    assert (NA : forall e, ~ In (IAttr (hcl_name f) e) body).
    { intros e J. apply IA in J. destruct J as [J|[]]. discriminate. }
    pose proof (PropsStruct.C58_own_type _ _ _ _ _ _ _ distinct _ _ _ _ _ _ _ _ _ _ _ _ _ _ _ u RO no_user D R F (stands_blocks _ _ _ NA) (fun x => x) Pu) as X.
    rewrite IB in X. destruct X as (X & _). destruct (X Su) as (y & Fr & ->).
    apply (struct_in_stored _ _ u w); [exact S|]. exact (fresh_back u [] w _ _ _ _ _ _ G H2 RO Fr).
  - exfalso. inversion S; subst; inversion H; subst; kinds.
  - exfalso. inversion S; subst; inversion H; subst; kinds.
Qed.

Lemma back_slice : forall f et l, hcl_kind f <> "label" -> GoType.under E (ftype f) = TSlice et -> l <> [] ->
  (forall x, In x l -> is_zero et x = false /\ exists u w, struct_in E et x u w) ->
  (forall x u w, In x l -> struct_in E et x u w -> good_struct u [] w) -> back f (HSlice l).
Proof.
  intros f et l K U Nl S G addr key pt t text body cl ref ref' labels v0 v' c p P IA IB D R RO NN F C NL Z0.
  assert (Co : is_coll E (ftype f)) by (eexists; left; exact U).
  assert (Se : exists u, elem_class E et = Registered u /\ (is_struct E et \/ is_pointer E et) /\
    forall x u' w, In x l -> struct_in E et x u' w -> u' = u).
  { destruct l as [|x l]; [congruence|]. destruct (S x (or_introl eq_refl)) as (_ & u & w & Sx). exists u.
    split; [exact (struct_in_elem _ _ _ _ Sx)|]. split.
    - inversion Sx; subst; [left; assumption|right; eexists; eassumption].
    - intros x' u' w' _ Sx'. apply struct_in_elem in Sx, Sx'. congruence. }
  destruct Se as (u & Ec & Sp & Su).
  inversion P; subst; cbn [pt_attrs pt_outs app] in IA, IB.
  - absent. match goal with H : absent _ _ _ _ _ |- _ => apply H end.
  - exfalso. match goal with H : hollow _ _ _ _ |- _ => destruct H as [H _] end. kinds.
  - absent. direct. assumption.
  - exfalso. kinds. destruct Sp; kinds.
  - exfalso. direct. match goal with H : empty _ _ |- _ => inversion H; subst; congruence end.
  - exfalso. direct. kinds.
  - exfalso. direct. discriminate.
  - exfalso. direct. discriminate.
  - no_data; direct; try discriminate; kinds; destruct_sp.
  - exfalso. match goal with H : holds E _ _ _ _ _ _ |- _ => inversion H; subst end; kinds.
  - direct. match goal with X : HSlice _ = HSlice _ |- _ => injection X as -> end. assert (et0 = et) by congruence. subst et0.
    assert (c = Block) as ->.
    { apply (class_block_type f c (ftype f) (class_here _ _ _ _ D NN _ _ _ _ _ F) C NL).
      - apply points_self. intros y Uy. kinds.
      - right. exists et. split; [left; exact U|exact Sp]. }
    assert (NA : forall e, ~ In (IAttr (hcl_name f) e) body).
    { intros e J. apply IA in J.
      assert (X : forall name l its, elem_blocks name et l its -> forall k e, ~ In (IAttr k e) its).
      { clear. intros name l its H. induction H; intros k e; [intros []|apply IHelem_blocks|apply IHelem_blocks|intros [J|J]; [discriminate|exact (IHelem_blocks k e J)]]. }
      match goal with H : elem_blocks _ _ _ _ |- _ => exact (X _ _ _ H _ _ J) end. }
    assert (Pf : points E (ftype f) (ftype f)) by (apply points_self; intros y Uy; kinds).
    pose proof (PropsStruct.C58_own_type _ _ _ _ _ _ _ distinct _ _ _ _ _ _ _ _ _ _ _ _ _ _ _ (ftype f) RO no_user D R F (stands_blocks _ _ _ NA) (fun x => x) Pf) as X.
    match goal with H : elem_blocks _ _ _ _ |- _ => rename H into HB end.
    assert (Y : forall xs, Forall2 (fun lb x => exists y, fresh_element ref text u lb y /\ x = snd (stored E et u y)) (tag_blocks its (hcl_name f)) xs ->
      Forall2 (alike et) l xs).
    { clear -HB S G Su RO. revert its HB. induction l as [|x l IH]; intros its HB xs H.
      - inversion HB; subst. inversion H; subst. constructor.
      - destruct (S x (or_introl eq_refl)) as (Zx & u0 & w0 & Sx).
        inversion HB as [|? ? ? ? ? Zx'|? ? ? ? ? Hol|? ? ? a u1 w1 ls b ? its' Zx' _ Hx Rx HB']; subst;
          [congruence|exfalso; destruct Hol as [? _]; inversion Sx; subst; kinds|].
        destruct (struct_in_holds _ _ _ _ _ _ _ _ Sx Hx) as [-> ->].
        assert (u0 = u) by (apply (Su x u0 w0); [left; reflexivity|exact Sx]). subst u0.
        cbn [tag_blocks flat_map] in H. destruct (string_dec (hcl_name f) (hcl_name f)); [|contradiction].
        cbn [app] in H. inversion H as [|? x' ? xs' (y & Fr & ->) H']; subst. constructor.
        + apply (struct_in_stored _ _ u w0); [exact Sx|].
          exact (fresh_back u [] w0 _ _ _ _ _ _ (G x u w0 (or_introl eq_refl) Sx) Rx RO Fr).
        + apply (IH (fun y J => S y (or_intror J)) (fun y a b J => G y a b (or_intror J)) (fun y a b J => Su y a b (or_intror J)) its' HB').
          exact H'. }
    destruct (tag_blocks body (hcl_name f)) as [|lb0 lbs] eqn:TB.
    + exfalso. specialize (Y [] ltac:(rewrite <- IB; constructor)). inversion Y. congruence.
    + destruct X as (_ & X & _). destruct (X et u U Ec) as (xs & -> & Fx). apply (al_slice _ _ _ _ et); [exact U|].
      apply Y. rewrite <- IB. exact Fx.
  - exfalso. direct. kinds.
Qed.

Definition single_entries (m : list (string * hval)) : list (list string * hval) := map (fun kv => ([fst kv], snd kv)) m.
Lemma last_entry_block : forall name et m its, entry_blocks name et (single_entries m) its -> NoDup (keys m) -> forall k,
  match lookup k m with
  | None => last_labelled k (tag_blocks its name) = None
  | Some x => exists a u w ls b, holds E false et x a u w /\ represents a u w [k] ls b /\
      last_labelled k (tag_blocks its name) = Some ((k :: ls)%list, b)
  end.
Proof.
  intros name et m. induction m as [|[k0 x0] m IH]; intros its H N k.
  - cbn in H. inversion H; subst. reflexivity.
  - cbn in H. inversion H as [|? ? ? ? a u w ls b ? its' Hx Rx H']; subst. cbn in N. inversion N as [|? ? N1 N2]; subst.
    specialize (IH its' H' N2 k). unfold tag_blocks. cbn [flat_map]. destruct (string_dec name name); [|contradiction].
    fold (tag_blocks its' name). cbn [app]. unfold last_labelled in *. cbn [rev]. rewrite find_app.
    cbn [lookup]. destruct (eq_dec k k0) as [->|NE].
    + assert (L : lookup k0 m = None) by (apply lookup_None; exact N1). rewrite L in IH. rewrite IH.
      exists a, u, w, ls, b. split; [exact Hx|]. split; [exact Rx|]. cbn.
      destruct (string_dec k0 k0); [reflexivity|contradiction].
    + destruct (lookup k m) as [x|].
      * destruct IH as (a' & u' & w' & ls' & b' & I1 & I2 & I3). rewrite I3. exists a', u', w', ls', b'. auto.
      * rewrite IH. cbn. destruct (string_dec k0 k); [congruence|reflexivity].
Qed.

Lemma back_entries : forall f kt et m, hcl_kind f <> "label" -> GoType.under E (ftype f) = TMap kt et ->
  GoType.under E kt = TBasic "string" -> m <> [] -> NoDup (keys m) ->
  (forall k x, In (k, x) m -> exists u w, struct_in E et x u w) ->
  (forall k x u w, In (k, x) m -> struct_in E et x u w -> good_struct u [k] w) -> back f (HMap m).
Proof.
  intros f kt et m K U Uk Nl ND S G addr key pt t text body cl ref ref' labels v0 v' c p P IA IB D R RO NN F C NL Z0.
  assert (Co : is_coll E (ftype f)) by (eexists; right; eexists; exact U).
  assert (Se : exists u, elem_class E et = Registered u /\ (is_struct E et \/ is_pointer E et) /\
    forall k x u' w, In (k, x) m -> struct_in E et x u' w -> u' = u).
  { destruct m as [|[k x] m]; [congruence|]. destruct (S k x (or_introl eq_refl)) as (u & w & Sx). exists u.
    split; [exact (struct_in_elem _ _ _ _ Sx)|]. split.
    - inversion Sx; subst; [left; assumption|right; eexists; eassumption].
    - intros k' x' u' w' _ Sx'. apply struct_in_elem in Sx, Sx'. congruence. }
  destruct Se as (u & Ec & Sp & Su).
  inversion P; subst; cbn [pt_attrs pt_outs app] in IA, IB.
  - absent. match goal with H : absent _ _ _ _ _ |- _ => apply H end.
  - exfalso. match goal with H : hollow _ _ _ _ |- _ => destruct H as [H _] end. kinds.
  - absent. direct. assumption.
  - exfalso. kinds. destruct Sp; kinds.
  - exfalso. direct. kinds.
  - exfalso. direct. match goal with H : empty _ _ |- _ => inversion H; subst; congruence end.
  - exfalso. direct. discriminate.
  - exfalso. direct. discriminate.
  - no_data; direct; try discriminate; kinds; destruct_sp.
  - exfalso. match goal with H : holds E _ _ _ _ _ _ |- _ => inversion H; subst end; kinds.
  - exfalso. direct. kinds.
  - direct. match goal with H : entries_of _ _ |- _ => inversion H; subst end.
    assert (kt0 = kt /\ et0 = et) as [-> ->] by (split; congruence).
    match goal with H : entry_blocks _ _ _ _ |- _ => rename H into HB end.
    assert (c = Block) as ->.
    { apply (class_block_type f c (ftype f) (class_here _ _ _ _ D NN _ _ _ _ _ F) C NL).
      - apply points_self. intros y Uy. kinds.
      - right. exists et. split; [right; eexists; exact U|exact Sp]. }
    assert (NA : forall e, ~ In (IAttr (hcl_name f) e) body).
    { intros e J. apply IA in J.
      assert (X : forall name l its, entry_blocks name et l its -> forall k e, ~ In (IAttr k e) its).
      { clear. intros name l its H. induction H; intros k e; [intros []|intros [J|J]; [discriminate|exact (IHentry_blocks k e J)]]. }
      exact (X _ _ _ HB _ _ J). }
    assert (Pf : points E (ftype f) (ftype f)) by (apply points_self; intros y Uy; kinds).
    pose proof (PropsStruct.C58_own_type _ _ _ _ _ _ _ distinct _ _ _ _ _ _ _ _ _ _ _ _ _ _ _ (ftype f) RO no_user D R F (stands_blocks _ _ _ NA) (fun x => x) Pf) as X.
    pose proof (last_entry_block _ _ _ _ HB ND) as LE. rewrite IB in X.
    destruct (tag_blocks its (hcl_name f)) as [|lb0 lbs] eqn:TB.
    + exfalso. destruct m as [|[k x] m]; [congruence|]. specialize (LE k). cbn [lookup] in LE. destruct (eq_dec k k); [|contradiction].
      destruct LE as (? & ? & ? & ? & ? & _ & _ & LE). discriminate LE.
    + destruct X as (_ & _ & X). destruct (X kt et u U) as (xs & -> & Fx); [unfold pair_key; rewrite Uk; reflexivity|exact Ec|].
      apply (al_map _ _ _ _ kt et); [exact U|intro k|intros k x y Lx Ly]; specialize (Fx k); specialize (LE k).
      * destruct (lookup k m) as [x|].
        -- destruct LE as (a & u' & w & ls & b & _ & _ & LE). rewrite LE in Fx. destruct Fx as (y & _ & Fx). rewrite Fx. split; discriminate.
        -- rewrite LE in Fx. rewrite Fx. tauto.
      * rewrite Lx in LE. destruct LE as (a & u' & w' & ls & b & Hx & Rx & LE). rewrite LE in Fx. destruct Fx as (z & Fr & Fx).
        rewrite Ly in Fx. injection Fx as ->. apply lookup_In in Lx. destruct (S k x Lx) as (u0 & w0 & Sx).
        destruct (struct_in_holds _ _ _ _ _ _ _ _ Sx Hx) as [-> ->].
        assert (u0 = u) by (exact (Su k x u0 w0 Lx Sx)). subst u0.
        apply (struct_in_stored _ _ u w0); [exact Sx|].
        exact (fresh_back u [k] w0 _ _ _ _ _ _ (G k x u w0 Lx Sx) Rx RO Fr).
Qed.

Definition pair_entries (m : list ((string * string) * hval)) : list (list string * hval) :=
  map (fun kv => (labels_of_key (fst kv), snd kv)) m.
Lemma pair_labels : forall a b, a <> "" -> b <> "" -> labels_of_key (a, b) = [a; b].
Proof.
  intros a b A B. unfold labels_of_key. cbn [filter fst snd]. destruct (string_dec a ""); [contradiction|].
  destruct (string_dec b ""); [contradiction|]. reflexivity.
Qed.
Lemma pair_blocks : forall name et (Q : list string * list item -> hval -> Prop) (own : hval -> string * string) m its es,
  entry_blocks name et (pair_entries m) its ->
  (forall a b x, In ((a, b), x) m -> a <> "" /\ b <> "") ->
  Forall2 (fun lb (e : (string * string) * hval) => List.length (fst lb) <= 2 /\
    (exists o, pair_key_of (fst lb) o (fst e)) /\ Q lb (snd e)) (tag_blocks its name) es ->
  Forall2 (fun (kx e : (string * string) * hval) => fst e = fst kx /\ exists a u w ls b, holds E false et (snd kx) a u w /\
    represents a u w [fst (fst kx); snd (fst kx)] ls b /\ Q ([fst (fst kx); snd (fst kx)] ++ ls, b)%list (snd e)) m es.
Proof.
  intros name et Q own m. induction m as [|[[k1 k2] x] m IH]; intros its es H NE F.
  - cbn in H. inversion H; subst. cbn in F. inversion F; subst. constructor.
  - unfold pair_entries in H. cbn [map fst snd] in H. inversion H as [|? ? ? ? a u w ls b ? its' Hx Rx H']; subst.
    destruct (NE k1 k2 x (or_introl eq_refl)) as [N1 N2]. rewrite (pair_labels _ _ N1 N2) in *.
    unfold tag_blocks in F. cbn [flat_map] in F. destruct (string_dec name name); [|contradiction].
    fold (tag_blocks its' name) in F. cbn [app] in F. inversion F as [|? [k y] ? es' (_ & (o & Ko) & Qx) F']; subst. cbn [fst snd] in *.
    constructor.
    + cbn [fst snd]. split; [|exists a, u, w, ls, b; auto].
      inversion Ko as [Z|a' b' r Z _ _|a' r Z _ Z'|a' r Z _ Z']; subst; [contradiction|injection Z as <- <- <-; reflexivity| |];
        injection Z as <- <-; contradiction.
    + apply (IH its' es' H'); [intros a' b' x' I; apply (NE a' b' x'); right; exact I|exact F'].
Qed.
Lemma lookup_aligned : forall (P : (string * string) * hval -> (string * string) * hval -> Prop) m es,
  Forall2 (fun kx e => fst e = fst kx /\ P kx e) m es -> forall k,
  match lookup k m with
  | None => lookup k es = None
  | Some x => exists y, lookup k es = Some y /\ P (k, x) (k, y)
  end.
Proof.
  intros P m es H k. induction H as [|[k1 x] [k2 y] m es [Ek Px] H IH]; [reflexivity|]. cbn [fst] in Ek. subst k2.
  cbn [lookup]. destruct (eq_dec k k1) as [->|]; [eauto|exact IH].
Qed.
Lemma lookup_rev : forall (es : list ((string * string) * hval)), NoDup (keys es) -> forall k, lookup k (rev es) = lookup k es.
Proof.
  intros es N k. assert (N' : NoDup (keys (rev es))) by (unfold keys; rewrite map_rev; apply NoDup_rev; exact N).
  destruct (lookup k es) as [x|] eqn:L.
  - apply In_lookup; [exact N'|]. rewrite <- in_rev. apply lookup_In. exact L.
  - apply lookup_None. unfold keys. rewrite map_rev, <- in_rev. apply lookup_None. exact L.
Qed.

Lemma back_pairs : forall f kt et m, hcl_kind f <> "label" -> GoType.under E (ftype f) = TMap kt et ->
  FitSpec.is_pair E kt -> m <> [] -> NoDup (keys m) ->
  (forall a b x, In ((a, b), x) m -> a <> "" /\ b <> "" /\ exists u w, struct_in E et x u w) ->
  (forall a b x u w, In ((a, b), x) m -> struct_in E et x u w -> good_struct u [a; b] w) -> back f (HMap2 m).
Proof.
  intros f kt et m K U (pt0 & Uk) Nl ND S G addr key pt t text body cl ref ref' labels v0 v' c p P IA IB D R RO NN F C NL Z0.
  assert (Co : is_coll E (ftype f)) by (eexists; right; eexists; exact U).
  assert (Se : exists u, elem_class E et = Registered u /\ (is_struct E et \/ is_pointer E et) /\
    forall k x u' w, In (k, x) m -> struct_in E et x u' w -> u' = u).
  { destruct m as [|[[a b] x] m]; [congruence|]. destruct (S a b x (or_introl eq_refl)) as (_ & _ & u & w & Sx). exists u.
    split; [exact (struct_in_elem _ _ _ _ Sx)|]. split.
    - inversion Sx; subst; [left; assumption|right; eexists; eassumption].
    - intros k' x' u' w' _ Sx'. apply struct_in_elem in Sx, Sx'. congruence. }
  destruct Se as (u & Ec & Sp & Su).
  inversion P; subst; cbn [pt_attrs pt_outs app] in IA, IB.
  - absent. match goal with H : absent _ _ _ _ _ |- _ => apply H end.
  - exfalso. match goal with H : hollow _ _ _ _ |- _ => destruct H as [H _] end. kinds.
  - absent. direct. assumption.
  - exfalso. kinds. destruct Sp; kinds.
  - exfalso. direct. kinds.
  - exfalso. direct. match goal with H : empty _ _ |- _ => inversion H; subst; congruence end.
  - exfalso. direct. discriminate.
  - exfalso. direct. discriminate.
  - no_data; direct; try discriminate; kinds; destruct_sp.
  - exfalso. match goal with H : holds E _ _ _ _ _ _ |- _ => inversion H; subst end; kinds.
  - exfalso. direct. kinds.
  - direct. match goal with H : entries_of _ _ |- _ => inversion H; subst end.
    assert (kt0 = kt /\ et0 = et) as [-> ->] by (split; congruence).
    match goal with H : entry_blocks _ _ _ _ |- _ => rename H into HB end.
    assert (c = Block) as ->.
    { apply (class_block_type f c (ftype f) (class_here _ _ _ _ D NN _ _ _ _ _ F) C NL).
      - apply points_self. intros y Uy. kinds.
      - right. exists et. split; [right; eexists; exact U|exact Sp]. }
    assert (NA : forall e, ~ In (IAttr (hcl_name f) e) body).
    { intros e J. apply IA in J.
      assert (X : forall name l its, entry_blocks name et l its -> forall k e, ~ In (IAttr k e) its).
      { clear. intros name l its H. induction H; intros k e; [intros []|intros [J|J]; [discriminate|exact (IHentry_blocks k e J)]]. }
      exact (X _ _ _ HB _ _ J). }
    assert (Pk : pair_key E kt = true) by (unfold pair_key; rewrite Uk; reflexivity).
    destruct (PropsStruct.C58_pairs _ _ _ _ _ _ _ distinct _ _ _ _ _ _ _ _ _ _ _ _ _ _ _ kt et u RO no_user D R F (stands_blocks _ _ _ NA) (fun x => x) U Pk Ec)
      as [[X _]|(xs & es & -> & Fe & Lx)]; rewrite IB in *.
    + exfalso. destruct m as [|[k x] m]; [congruence|]. inversion HB; subst. cbn in X.
      destruct (string_dec (hcl_name f) (hcl_name f)); [discriminate|contradiction].
    + assert (Fe' : Forall2 (fun lb (e : (string * string) * hval) => List.length (fst lb) <= 2 /\
          (exists o, pair_key_of (fst lb) o (fst e)) /\ fresh_element ref text u lb (snd e)) (tag_blocks its (hcl_name f)) es).
      { clear -Fe. induction Fe as [|lb e lbs es (A1 & (o & _ & A2) & A3) Fe IH]; constructor; eauto. }
      pose proof (pair_blocks _ _ (fresh_element ref text u) (fun _ => ("", "")) _ _ _ HB
        (fun a b x I => conj (proj1 (S a b x I)) (proj1 (proj2 (S a b x I)))) Fe') as Al.
      assert (Ke : NoDup (keys es)).
      { replace (keys es) with (keys m); [exact ND|]. clear -Al. induction Al as [|kx e m es [Ek _] Al IH]; [reflexivity|].
        cbn. rewrite Ek. f_equal. exact IH. }
      pose proof (lookup_aligned _ _ _ Al) as LA.
      apply (al_pairs _ _ _ _ kt et); [exact U|intro k|intros k x y Lk Ly]; specialize (LA k).
      * rewrite Lx, (lookup_rev _ Ke). destruct (lookup k m) as [x|].
        -- destruct LA as (y & -> & _). split; discriminate.
        -- rewrite LA. tauto.
      * rewrite Lx, (lookup_rev _ Ke) in Ly. rewrite Lk in LA. destruct LA as (z & Lz & a & u' & w & ls & b & Hx & Rx & Fr).
        rewrite Lz in Ly. cbn [option_map] in Ly. injection Ly as <-. apply lookup_In in Lk. destruct k as [k1 k2]. cbn [fst snd] in *.
        destruct (S k1 k2 x Lk) as (_ & _ & u0 & w0 & Sx). destruct (struct_in_holds _ _ _ _ _ _ _ _ Sx Hx) as [-> ->].
        assert (u0 = u) by (exact (Su _ x u0 w0 Lk Sx)). subst u0.
        apply (struct_in_stored _ _ u w0); [exact Sx|].
        exact (fresh_back u [k1; k2] w0 _ _ _ _ _ _ (G k1 k2 x u w0 Lk Sx) Rx RO Fr).
Qed.

(* ----- the fields of a struct ----- *)

Lemma leaves_unique : forall p fs l, leaves E p fs l -> forall l', leaves E p fs l' -> l' = l.
Proof.
  intros p fs l H. induction H; intros l1 H'; inversion H'; subst; try congruence;
    try (match goal with IH : forall l', leaves E ?p ?fs l' -> l' = _, X : leaves E ?p ?fs ?l1 |- _ => rewrite (IH _ X) in *; reflexivity end);
    try (exfalso; kinds; congruence).
  all: try (exfalso; match goal with X : ~ is_struct E _ |- _ => apply X; eexists; eassumption end).
  all: try (exfalso; match goal with X : ?b = true -> ?n <> "" |- _ => apply X; [assumption|congruence] end).
  all: try (exfalso; match goal with X : ~ is_pointer E _ |- _ => apply X; eexists; eassumption end).
  all: match goal with X : GoType.under E _ = TPtr ?a, Y : GoType.under E _ = TPtr ?b |- _ => assert (a = b) by congruence; subst | _ => idtac end.
  all: match goal with X : GoType.under E ?t = TStruct ?a, Y : GoType.under E ?t = TStruct ?b |- _ => assert (a = b) by congruence; subst end.
  all: match goal with X : leaves E (_ ++ _)%list _ ?a, Y : leaves E ?p ?fs ?b |- (?a ++ ?b)%list = _ => rewrite (IHleaves1 _ X), (IHleaves2 _ Y); reflexivity end.
Qed.

Definition on_name (n : string) (i : item) : bool := String.eqb (item_name i) n.
Lemma not_on_name : forall n m its, named_all n its -> n <> m -> filter (on_name m) its = [].
Proof.
  intros n m its H N. induction its as [|i its IH]; [reflexivity|]. cbn [filter]. unfold on_name at 1.
  rewrite (H i (or_introl eq_refl)). destruct (String.eqb_spec n m); [contradiction|]. apply IH. intros j J. apply H. right. exact J.
Qed.
Lemma all_on_name : forall n its, named_all n its -> filter (on_name n) its = its.
Proof.
  intros n its H. induction its as [|i its IH]; [reflexivity|]. cbn [filter]. unfold on_name at 1.
  rewrite (H i (or_introl eq_refl)), String.eqb_refl. f_equal. apply IH. intros j J. apply H. right. exact J.
Qed.
Lemma tag_blocks_filter : forall n its, tag_blocks (filter (on_name n) its) n = tag_blocks its n.
Proof.
  intros n its. unfold tag_blocks. induction its as [|i its IH]; [reflexivity|]. cbn [filter]. unfold on_name at 1.
  destruct i as [k e|k ls b]; cbn [item_name]; destruct (String.eqb_spec k n) as [->|N]; cbn [flat_map]; rewrite IH; [reflexivity|reflexivity|reflexivity|].
  destruct (string_dec k n); [contradiction|reflexivity].
Qed.
Lemma tag_blocks_app : forall n a b, tag_blocks (a ++ b) n = (tag_blocks a n ++ tag_blocks b n)%list.
Proof. intros. unfold tag_blocks. apply flat_map_app. Qed.
Lemma attrs_no_blocks : forall addr key f v pt n, field_part addr key f v pt -> tag_blocks (pt_attrs pt) n = [].
Proof. intros addr key f v pt n H. inversion H; reflexivity. Qed.

(* The items of a body that have the name of a field are those of the field. *)
Lemma body_part : forall L ps addr key v f p,
  Forall2 (fun fp q => field_part (addr || behind_pointer (snd fp)) key (fst fp) (hget v (snd fp)) q) L ps -> In (f, p) L ->
  NoDup (map (fun fp => hcl_name (fst fp)) L) ->
  exists pt, field_part (addr || behind_pointer p) key f (hget v p) pt /\
    let body := (flat_map pt_attrs ps ++ flat_map pt_outs ps)%list in
    (forall e, In (IAttr (hcl_name f) e) body <-> In (IAttr (hcl_name f) e) (pt_attrs pt ++ pt_outs pt)) /\
    tag_blocks body (hcl_name f) = tag_blocks (pt_outs pt) (hcl_name f).
Proof.
  intros L ps addr key v f p H I N.
  assert (X : exists pt, field_part (addr || behind_pointer p) key f (hget v p) pt /\
    filter (on_name (hcl_name f)) (flat_map pt_attrs ps) = pt_attrs pt /\
    filter (on_name (hcl_name f)) (flat_map pt_outs ps) = pt_outs pt).
  { clear - H I N. induction H as [|[g q] pt L ps Hp H IH]; [destruct I|].
    cbn [map fst snd] in *. inversion N as [|? ? N1 N2]; subst. cbn [flat_map]. rewrite !filter_app.
    destruct (part_named _ _ _ _ _ Hp) as [A1 A2]. destruct I as [I|I].
    - injection I as -> ->. exists pt. split; [exact Hp|]. rewrite (all_on_name _ _ A1), (all_on_name _ _ A2).
      assert (Y : filter (on_name (hcl_name f)) (flat_map pt_attrs ps) = [] /\ filter (on_name (hcl_name f)) (flat_map pt_outs ps) = []).
      { clear - H N1. induction H as [|[g q] pt' L ps Hp H IH]; [split; reflexivity|]. cbn [flat_map]. rewrite !filter_app.
        destruct (part_named _ _ _ _ _ Hp) as [A1 A2]. cbn [map In fst] in N1.
        rewrite (not_on_name (hcl_name g) _ _ A1), (not_on_name (hcl_name g) _ _ A2) by tauto. apply IH. tauto. }
      destruct Y as [-> ->]. rewrite !app_nil_r. auto.
    - destruct (IH I N2) as (pt' & P' & F1 & F2). exists pt'. split; [exact P'|].
      assert (Ne : hcl_name g <> hcl_name f).
      { intro Eq. apply N1. rewrite Eq. change (hcl_name f) with ((fun fp : gfield * list string => hcl_name (fst fp)) (f, p)). apply in_map. exact I. }
      rewrite (not_on_name _ _ _ A1 Ne), (not_on_name _ _ _ A2 Ne). auto. }
  destruct X as (pt & P & X1 & X2). exists pt. split; [exact P|]. cbv zeta. split.
  - intro e. rewrite <- X1, <- X2, <- filter_app, filter_In. unfold on_name. cbn [item_name]. rewrite String.eqb_refl. tauto.
  - rewrite <- (tag_blocks_filter _ (_ ++ _)%list), filter_app, X1, X2, tag_blocks_app, (attrs_no_blocks _ _ _ _ _ _ P). reflexivity.
Qed.

(* ----- labels ----- *)

Definition label_field (f : gfield) (x : hval) : Prop :=
  hcl_kind f = "label" /\ GoType.under E (ftype f) = TBasic "string" /\ exists s, x = HText s.
Lemma label_part : forall addr key f s pt, hcl_kind f = "label" -> GoType.under E (ftype f) = TBasic "string" ->
  field_part addr key f (HText s) pt ->
  pt = if string_dec s "" then nothing else if (match key with k :: _ => if string_dec k s then true else false | [] => false end) then nothing else Part [s] [] [].
Proof.
  intros addr key f s pt K U P.
  assert (Z := zero_text _ s U).
  inversion P; subst; try (exfalso; unfold attr_kind in *; kinds; intuition congruence).
  all: try solve [exfalso; try (match goal with H : holds E _ _ _ _ _ _ |- _ => inversion H; subst end);
    try (match goal with H : hollow _ _ _ _ |- _ => destruct H as [H _] end); try direct;
    try (match goal with H : data_field _ _ _ _ _ |- _ => inversion H; subst end); kinds].
  - assert (s = "") as -> by (apply Z; match goal with H : absent _ _ _ _ _ |- _ => apply H end). reflexivity.
  - destruct (string_dec s "") as [->|]; [rewrite (proj2 Z eq_refl) in *; discriminate|].
    destruct key as [|k key]; [reflexivity|]. destruct (string_dec k s) as [->|]; [cbn in *; congruence|reflexivity].
  - destruct (string_dec s "") as [->|]; [reflexivity|]. destruct key as [|k key]; [discriminate|].
    destruct (string_dec k s) as [->|]; [reflexivity|cbn in *; congruence].
Qed.

Definition kept (key : list string) (s : string) : bool :=
  negb (if string_dec s "" then true else match key with k :: _ => if string_dec k s then true else false | [] => false end).
Lemma labels_kept : forall addr key v L ps,
  Forall2 (fun fp q => field_part (addr || behind_pointer (snd fp)) key (fst fp) (hget v (snd fp)) q) L ps ->
  (forall f p, In (f, p) L -> label_field f (hget v p) \/ hcl_kind f <> "label") ->
  exists ss, label_texts v L = map HText ss /\ flat_map pt_labels ps = filter (kept key) ss.
Proof.
  intros addr key v L ps H. induction H as [|[g q] pt L ps Hp H IH]; intro X; [exists []; split; reflexivity|].
  destruct IH as (ss & I1 & I2); [intros f p I; apply X; right; exact I|].
  unfold label_texts in *. cbn [flat_map fst snd] in *. rewrite I1, I2.
  destruct (X g q (or_introl eq_refl)) as [(K & U & s & Es)|K].
  - rewrite K, Es. cbn. exists (s :: ss). split; [reflexivity|]. cbn [filter]. rewrite Es in Hp.
    rewrite (label_part _ _ _ _ _ K U Hp). unfold kept at 2. destruct (string_dec s ""); [reflexivity|].
    destruct (match key with k :: _ => if string_dec k s then true else false | [] => false end); reflexivity.
  - destruct (string_dec (hcl_kind g) "label"); [contradiction|]. exists ss. split; [reflexivity|].
    rewrite (part_labels _ _ _ _ _ Hp K). reflexivity.
Qed.
Lemma kept_all : forall key ss, (forall s, In s ss -> kept key s = true) -> filter (kept key) ss = ss.
Proof.
  intros key ss H. induction ss as [|s ss IH]; [reflexivity|]. cbn [filter]. rewrite (H s (or_introl eq_refl)). f_equal.
  apply IH. intros x I. apply H. right. exact I.
Qed.
Lemma labels_back : forall addr key v L ps,
  Forall2 (fun fp q => field_part (addr || behind_pointer (snd fp)) key (fst fp) (hget v (snd fp)) q) L ps ->
  (forall f p, In (f, p) L -> label_field f (hget v p) \/ hcl_kind f <> "label") ->
  labels_return key (label_texts v L) ->
  map HText (key ++ flat_map pt_labels ps) = label_texts v L
  \/ Forall (fun x => x = HText "") (label_texts v L) /\ (key ++ flat_map pt_labels ps)%list = []
  \/ label_texts v L = [].
Proof.
  intros addr key v L ps H X R. destruct (labels_kept _ _ _ _ _ H X) as (ss & E1 & E2). rewrite E2. rewrite E1 in *.
  destruct key as [|k [|k' [|k'' key]]]; [| |right; right; exact R|destruct R].
  - destruct R as [R|R].
    + left. cbn [app]. rewrite kept_all; [reflexivity|]. intros s I. rewrite Forall_forall in R.
      destruct (R (HText s)) as (s' & Es & N); [apply in_map; exact I|]. injection Es as <-. unfold kept.
      destruct (string_dec s ""); [contradiction|reflexivity].
    + right. left. split; [exact R|]. cbn [app]. clear E1 E2. induction ss as [|s ss IH]; [reflexivity|].
      inversion R as [|? ? Es R']; subst. injection Es as ->. cbn. apply IH. exact R'.
  - destruct R as [R|(rest & R & F)]; [right; right; exact R|]. left. destruct ss as [|s ss]; [discriminate|].
    cbn [map] in R. injection R as -> <-. cbn [filter app].
    assert (K : kept [k] k = false) by (unfold kept; destruct (string_dec k ""), (string_dec k k); auto; contradiction).
    rewrite K, kept_all; [reflexivity|]. intros s I. rewrite Forall_forall in F.
    destruct (F (HText s)) as (s' & Es & N & N'); [apply in_map; exact I|]. injection Es as <-. unfold kept.
    destruct (string_dec s ""); [contradiction|]. destruct (string_dec k s) as [->|]; [contradiction|reflexivity].
Qed.

(* ----- no attribute is null ----- *)

Lemma elem_no_attrs : forall name et l its, elem_blocks name et l its -> forall k e, ~ In (IAttr k e) its.
Proof.
  intros name et l its H k e. induction H; [intros []|assumption|assumption|intros [J|J]; [discriminate|contradiction]].
Qed.
Lemma entry_no_attrs : forall name et m its, entry_blocks name et m its -> forall k e, ~ In (IAttr k e) its.
Proof. intros name et m its H k e. induction H; [intros []|intros [J|J]; [discriminate|contradiction]]. Qed.
Lemma part_not_null : forall addr key f v pt k e, field_part addr key f v pt -> In (IAttr k e) (pt_attrs pt ++ pt_outs pt) ->
  ~ means e CNull.
Proof.
  intros addr key f v pt k e P I M. inversion P; subst; cbn [pt_attrs pt_outs app nothing] in I; try (destruct I; fail).
  - destruct I as [I|[]]. injection I as <- <-. assert (c = CNull) as -> by (eapply means_unique; eassumption).
    refine (attr_not_null _ _ _ _ _ _ eq_refl); [|eassumption|eassumption].
    match goal with H : attr_type _ _ _ _ |- _ => destruct H as [H|(et & H & H' & _)] end; [left; assumption|right; eauto].
  - destruct I as [I|[]]. injection I as <- <-. assert (c = CNull) as -> by (eapply means_unique; eassumption).
    match goal with H : number _ _ _ _ _ |- _ => inversion H end.
  - destruct I as [I|[]]. injection I as <- <-. inversion M.
  - destruct I as [I|[]]. discriminate I.
  - destruct I as [I|[]]. injection I as <- <-.
    match goal with H : forall n, expr_value _ n -> same _ n |- _ => specialize (H NNil) end.
    inversion M; subst; match goal with H : expr_value ?e NNil -> _ |- _ => assert (X : expr_value e NNil) by constructor; specialize (H X); inversion H end.
  - destruct I as [I|[]]. discriminate I.
  - destruct I as [I|[]]. injection I as <- <-.
    match goal with H : forall n, expr_value _ n -> same _ n |- _ => specialize (H NNil) end.
    assert (Y : n <> NNil).
    { intros ->. match goal with H : data_field _ _ _ _ _ |- _ => inversion H; subst end;
        match goal with H : data _ _ _ _ _ _ |- _ => inversion H; subst; congruence end. }
    inversion M; subst; match goal with H : expr_value ?e NNil -> _ |- _ => assert (X : expr_value e NNil) by constructor; specialize (H X); inversion H; subst end;
      try congruence; match goal with H : scalar NNil |- _ => inversion H end.
  - destruct I as [I|[]]. discriminate I.
  - match goal with H : elem_blocks _ _ _ _ |- _ => exact (elem_no_attrs _ _ _ _ H _ _ I) end.
  - match goal with H : entry_blocks _ _ _ _ |- _ => exact (entry_no_attrs _ _ _ _ H _ _ I) end.
Qed.
Lemma body_not_null : forall addr key v L ps,
  Forall2 (fun fp q => field_part (addr || behind_pointer (snd fp)) key (fst fp) (hget v (snd fp)) q) L ps ->
  forall k, ~ null_in (flat_map pt_attrs ps ++ flat_map pt_outs ps) k.
Proof.
  intros addr key v L ps H k (e & I & M).
  assert (X : exists fp pt, field_part (addr || behind_pointer (snd fp)) key (fst fp) (hget v (snd fp)) pt /\ In (IAttr k e) (pt_attrs pt ++ pt_outs pt)).
  { induction H as [|fp pt L ps Hp H IH]; [destruct I|]. cbn [flat_map] in I. rewrite !in_app_iff in I.
    destruct I as [[I|I]|[I|I]].
    - exists fp, pt. split; [exact Hp|]. apply in_or_app. auto.
    - apply IH. apply in_or_app. auto.
    - exists fp, pt. split; [exact Hp|]. apply in_or_app. auto.
    - apply IH. apply in_or_app. auto. }
  destruct X as (fp & pt & P & J). exact (part_not_null _ _ _ _ _ _ _ P J M).
Qed.

(* ----- structs ----- *)

Lemma shared_in : forall L cl, shared_fields L cl -> forall f p, In (f, p) L -> exists c, In (f, c) cl /\ claimed c = true.
Proof.
  intros L cl S f p I. apply (List.in_map fst) in I. unfold shared_fields in S. rewrite S in I. apply in_map_iff in I.
  destruct I as ([g c] & Eg & I). cbn in Eg. subst g. apply filter_In in I. exists c. exact I.
Qed.
Lemma names_distinct : forall L cl, shared_fields L cl -> NoDup (map (fun fc => fname (fst fc)) cl) -> distinct_tags cl ->
  (forall f p, In (f, p) L -> exists n k, tag2 (ftag f) = Ok (n, k) /\ n <> "") ->
  NoDup (map (fun fp => hcl_name (fst fp)) L).
Proof.
  intros L cl S N D T.
  assert (N' : NoDup (map fst L)).
  { unfold shared_fields in S. rewrite S. rewrite <- (map_map fst fname) in N. apply NoDup_map_inv in N. clear - N.
    induction cl as [|[f c] cl IH]; [constructor|]. cbn [map fst] in N. inversion N as [|? ? N1 N2]; subst. cbn [filter snd].
    destruct (claimed c); [|exact (IH N2)]. cbn [map fst]. constructor; [|exact (IH N2)].
    intro I. apply N1. apply in_map_iff in I. destruct I as (x & <- & I). apply filter_In in I. apply List.in_map. apply I. }
  assert (X : forall f p g q, In (f, p) L -> In (g, q) L -> hcl_name f = hcl_name g -> f = g).
  { intros f p g q If Ig H. destruct (T f p If) as (n & k & Tf & Nf), (T g q Ig) as (m & k' & Tg & Ng).
    unfold hcl_name in H. rewrite Tf, Tg in H. destruct (string_dec n ""); [contradiction|]. destruct (string_dec m ""); [contradiction|]. subst m.
    destruct (shared_in _ _ S f p If) as (c & Ic & Cc), (shared_in _ _ S g q Ig) as (d & Id & Cd).
    apply (D f c g d n k k' Ic Id Cc Cd Tf Tg). }
  clear - N' X. induction L as [|[f p] L IH]; [constructor|]. cbn [map fst] in *. inversion N' as [|? ? N1 N2]; subst. constructor.
  - intro I. apply in_map_iff in I. destruct I as ([g q] & Eg & I). cbn in Eg.
    assert (f = g) by (apply (X f p g q); [left; reflexivity|right; exact I|congruence]). subst g.
    apply N1. change f with (fst (f, q)). apply List.in_map. exact I.
  - apply IH; [exact N2|]. intros g q h r Ig Ih. apply (X g q h r); right; assumption.
Qed.

(* The fields that hold labels, for reading and writing. *)
Definition label_leaves (L : list (gfield * list string)) : list (gfield * list string) :=
  filter (fun fp => if string_dec (hcl_kind (fst fp)) "label" then true else false) L.
Lemma texts_of_leaves : forall v L, label_texts v L = map (fun fp => hget v (snd fp)) (label_leaves L).
Proof.
  intros v L. unfold label_texts, label_leaves. induction L as [|fp L IH]; [reflexivity|]. cbn [flat_map filter]. rewrite IH.
  destruct (string_dec (hcl_kind (fst fp)) "label"); reflexivity.
Qed.
Lemma class_kind : forall f c n k, class_of E [] [] f c -> tag2 (ftag f) = Ok (n, k) -> c = Label <-> is_label k.
Proof.
  intros f c n k C T. split.
  - intros ->. inversion C; subst; congruence.
  - intro I. inversion C; subst; try reflexivity; try contradiction; match goal with H : tag2 _ = Ok (?a, ?b) |- _ => assert (b = k) by congruence; subst b; contradiction end.
Qed.
Lemma kind_label : forall f n k, tag2 (ftag f) = Ok (n, k) -> n <> "" -> hcl_kind f = k.
Proof. intros f n k T N. unfold hcl_kind. rewrite T. destruct (string_dec n ""); [contradiction|reflexivity]. Qed.
Lemma filter_map_fst : forall (A B : Type) (q : A -> bool) (l : list (A * B)), filter q (map fst l) = map fst (filter (fun x => q (fst x)) l).
Proof. intros A B q l. induction l as [|x l IH]; [reflexivity|]. cbn [map filter]. rewrite IH. destruct (q (fst x)); reflexivity. Qed.
Lemma label_fields : forall L cl, shared_fields L cl -> (forall f c, In (f, c) cl -> class_of E [] [] f c) ->
  (forall f p, In (f, p) L -> exists n k, tag2 (ftag f) = Ok (n, k) /\ n <> "" /\ (is_label k -> k = "label")) ->
  of_class Label cl = map fst (label_leaves L).
Proof.
  intros L cl S C T. unfold of_class, label_leaves.
  rewrite <- (filter_map_fst _ _ (fun f => if string_dec (hcl_kind f) "label" then true else false)).
  assert (T' : forall f, In f (map fst L) -> exists n k, tag2 (ftag f) = Ok (n, k) /\ n <> "" /\ (is_label k -> k = "label")).
  { intros f I. apply in_map_iff in I. destruct I as ([g p] & <- & I). exact (T g p I). }
  unfold shared_fields in S. rewrite S in *. clear - C T'. induction cl as [|[f c] cl IH]; [reflexivity|]. cbn [filter snd].
  destruct (claimed c) eqn:Cc.
  - cbn [filter map fst snd] in *. rewrite Cc in T'. cbn [map fst] in *. specialize (IH (fun g d I => C g d (or_intror I))).
    assert (T'' := fun g I => T' g (or_intror I)). destruct (T' f) as (n & k & Tf & Nf & Lf); [left; reflexivity|].
    pose proof (class_kind _ _ _ _ (C f c (or_introl eq_refl)) Tf) as K. specialize (IH T'').
    rewrite (kind_label _ _ _ Tf Nf). destruct (cls_eq_dec c Label) as [->|Nc].
    + destruct (string_dec k "label") as [_|X]; [|destruct (X (Lf (proj1 K eq_refl)))]. cbn [map fst]. f_equal. exact IH.
    + destruct (string_dec k "label") as [->|_]; [|exact IH]. destruct (Nc (proj2 K eq_refl)).
  - destruct (cls_eq_dec c Label) as [->|_]; [discriminate|]. apply IH; [intros g d I; apply C; right; exact I|].
    cbn [filter snd] in T'. rewrite Cc in T'. exact T'.
Qed.

Lemma struct_case : forall t key v fs L cl, GoType.under E t = TStruct fs -> hook t = None ->
  leaves E [] fs L -> all_fields E [] [] fs cl -> shared_fields L cl ->
  NoDup (map (fun fc => fname (fst fc)) cl) -> distinct_tags cl ->
  (forall f p, In (f, p) L -> find_field E depth t (fname f) = Some (p, ftype f) /\ hget (zero t) p = zero (ftype f)) ->
  (forall f p, In (f, p) L -> exists n k, tag2 (ftag f) = Ok (n, k) /\ n <> "" /\ (is_label k -> k = "label")) ->
  labels_return key (label_texts v L) ->
  (forall f p, In (f, p) L -> label_field f (hget v p) \/ hcl_kind f <> "label" /\ back f (hget v p)) ->
  good_struct t key v.
Proof.
  intros t key v fs L cl U Hk Lv A S N DT FF T LR B. split; [exact Hk|].
  intros addr labels its text ref ref' v0 v' Rp Pt RO Z0 R.
  inversion Rp as [? ? ? ? fs' L' ps U' Lv' Ps]; subst. assert (fs' = fs) by congruence. subst fs'.
  assert (L' = L) by (eapply leaves_unique; eassumption). subst L'.
  set (body := (flat_map pt_attrs ps ++ flat_map pt_outs ps)%list) in *.
  assert (NN : forall k, ~ null_in body k) by (eapply body_not_null; exact Ps).
  assert (D : described t text None body cl).
  { exists fs, []. split; [exact U|]. split; [exact Pt|]. split; [|auto]. intro k. split; [intros []|intro X; destruct (NN k X)]. }
  assert (ND : NoDup (map (fun fp => hcl_name (fst fp)) L)).
  { apply (names_distinct L cl S N DT). intros f p I. destruct (T f p I) as (n & k & T1 & T2 & _). eauto. }
  assert (FA : forall f p c, In (f, p) L -> In (f, c) cl -> field_at t cl f c (hcl_name f) p (ftype f)).
  { intros f p c I Ic. split; [exact Ic|]. destruct (T f p I) as (n & k & T1 & T2 & _). split; [|apply FF; exact I].
    exists k. unfold hcl_name. rewrite T1. destruct (string_dec n ""); [contradiction|reflexivity]. }
  assert (CO : forall f c, In (f, c) cl -> class_of E [] [] f c) by (apply (all_fields_class _ _ _ _ _ A)).
  assert (LK : forall f p, In (f, p) L -> label_field f (hget v p) \/ hcl_kind f <> "label").
  { intros f p I. destruct (B f p I) as [X|[X _]]; auto. }
  pose proof (labels_back _ _ _ _ _ Ps LK LR) as LB.
  apply (al_struct _ _ _ t v v' fs L U Lv). intros f p I.
  destruct (shared_in _ _ S f p I) as (c & Ic & Cc). specialize (FA f p c I Ic).
  destruct (body_part _ _ _ _ _ _ _ Ps I ND) as (pt & P & IA & IB).
  assert (Zp : hget v0 p = zero (ftype f)) by (rewrite Z0; apply FF; exact I).
  destruct (T f p I) as (n & k & T1 & T2 & T3).
  pose proof (class_kind _ _ _ _ (CO f c Ic) T1) as CK. pose proof (kind_label _ _ _ T1 T2) as Ek.
  destruct (B f p I) as [(K & Us & s & Es)|[K Bf]].
  - assert (c = Label) as -> by (apply CK; rewrite <- Ek, K; reflexivity).
    assert (Il : In (f, p) (label_leaves L)).
    { apply filter_In. split; [exact I|]. cbn [fst]. rewrite K. reflexivity. }
    destruct (In_nth_error _ _ Il) as (i & Hi).
    pose proof (label_fields L cl S CO T) as OC.
    assert (Hf : nth_error (of_class Label cl) i = Some f) by (rewrite OC; rewrite (map_nth_error fst i _ Hi); reflexivity).
    assert (Hs : nth_error (label_texts v L) i = Some (HText s)).
    { rewrite texts_of_leaves, (map_nth_error (fun fp => hget v (snd fp)) i _ Hi). cbn [snd]. rewrite Es. reflexivity. }
    destruct (PropsStruct.C56_label_field _ _ _ _ _ _ _ _ _ _ _ _ _ _ _ _ _ _ _ _ _ _ D R Hf FA) as (w & Hw & Hv).
    assert (w = HText "") as ->.
    { destruct Hw as [(s' & J & _)|[_ ->]].
      - exfalso. apply IA in J. rewrite Es in P. rewrite (label_part _ _ _ _ _ K Us P) in J.
        destruct (string_dec s ""); [destruct J|].
        destruct (match key with k :: _ => if string_dec k s then true else false | [] => false end); destruct J.
      - rewrite Zp. apply text_zero. exact Us. }
    rewrite Es. destruct LB as [LB|[[LB1 LB2]|LB]].
    + destruct Hv as [(_ & _ & s' & H1 & H2)|[H1 _]].
      * rewrite H2. rewrite <- LB, (map_nth_error HText i _ H1) in Hs. injection Hs as <-. apply al_same.
      * exfalso. apply H1. split; [|reflexivity]. rewrite OC, map_length.
        rewrite <- (map_length (fun fp => hget v (snd fp)) (label_leaves L)), <- texts_of_leaves, <- LB, map_length. reflexivity.
    + assert (s = "") as ->.
      { rewrite Forall_forall in LB1. specialize (LB1 _ (nth_error_In _ _ Hs)). injection LB1 as ->. reflexivity. }
      destruct Hv as [(_ & _ & s' & H1 & H2)|[_ H2]]; [|rewrite H2; apply al_same].
      rewrite LB2 in H1. destruct i; discriminate.
    + rewrite LB in Hs. destruct i; discriminate.
  - apply (Bf _ key pt t text body cl ref ref' _ v0 v' c p P IA IB D R RO NN FA Cc); [|exact Zp].
    intros ->. apply K. rewrite Ek. apply T3, CK. reflexivity.
Qed.

Theorem returns_back : forall t key v, returns t key v -> good_struct t key v.
Proof.
  apply (returns_ind2 E depth is_zero zero to_cty len0 assignable decode_attr own_method good_struct
    (fun f x => label_field f x \/ hcl_kind f <> "label" /\ back f x)); intros.
  - assert (hook t = None) by (destruct (hook t); [exfalso; match goal with X : ~ _ <> None |- _ => apply X; discriminate end|reflexivity]).
    eapply struct_case; eassumption.
  - left. split; [assumption|]. split; [assumption|]. eauto.
  - right. split; [assumption|]. apply back_zero; assumption.
  - right. split; [unfold attr_kind in *; intuition congruence|]. apply back_attr; assumption.
  - assert (hcl_kind f <> "label") by (unfold attr_kind in *; intuition congruence).
    right. split; [assumption|]. eapply back_number; eassumption.
  - right. split; [assumption|]. eapply back_list; eassumption.
  - right. split; [assumption|]. eapply back_map; eassumption.
  - right. split; [assumption|]. eapply back_struct; eassumption.
  - right. split; [assumption|]. eapply back_slice; eassumption.
  - right. split; [assumption|]. eapply back_entries; eassumption.
  - right. split; [assumption|]. eapply back_pairs; eassumption.
Qed.
End Round.
