(* Writing a struct: the text parses to items that represent the value. *)

From Verif Require Import Base GoType DetModel CtyModel CtySpec HclModel HclSpec HclParse HclScan HclRound
  TagModel TagSpec TagProofs StructModel StructParse StructSpec StructFields MarshalModel MarshalSpec MarshalText MarshalParse MarshalData.
From Coq Require Import Lia.
Local Open Scope nat_scope.

Scheme can_write_ind2 := Minimality for can_write Sort Prop
  with can_field_ind2 := Minimality for can_field Sort Prop.
Combined Scheme can_mut from can_write_ind2, can_field_ind2.

(* ----- tags of fields without a tag ----- *)

Lemma ident_char_plain : forall c, ident_char c = true -> plain_char c /\ c <> ","%char.
Proof. intros [[] [] [] [] [] [] [] []] H; try discriminate H; repeat split; try discriminate; cbn; lia. Qed.
Lemma ident_chars : forall k, ident k -> all_chars ident_char k = true.
Proof.
  intros [|c k]; [contradiction|]. intros [H1 H2]. cbn. rewrite H2. unfold ident_char. rewrite H1. reflexivity.
Qed.
Lemma chars_of : forall (P : ascii -> Prop) s, (forall c, ident_char c = true -> P c) -> all_chars ident_char s = true ->
  chars P s.
Proof.
  intros P s H. induction s as [|c s IH]; intros A; [exact I|]. cbn in A. apply andb_true_iff in A. destruct A as [A1 A2].
  split; [exact (H c A1)|exact (IH A2)].
Qed.
Lemma chars_app : forall P a b, chars P a -> chars P b -> chars P (a +++ b).
Proof. intros P a b Ha Hb. induction a as [|c a IH]; [exact Hb|]. destruct Ha as [H1 H2]. split; [exact H1|exact (IH H2)]. Qed.
Lemma plain_quoted : forall v, plain_value v -> quoted_text v.
Proof. induction v as [|c v IH]; intros H; [constructor|]. destruct H as [[_ [H1 H2]] H3]. constructor; auto. Qed.

Lemma retag_tag : forall f kind, ident (to_lower (fname f)) -> plain_value kind ->
  tag2 (ftag (retag f kind)) = Ok (to_lower (fname f), kind).
Proof.
  intros f kind I K. cbn [retag ftag]. assert (A := ident_chars _ I).
  assert (P : plain_value (to_lower (fname f) +++ "," +++ kind)).
  { apply chars_app; [apply (chars_of plain_char); [|exact A]; intros c Hc; apply ident_char_plain; exact Hc|].
    split; [|exact K]. repeat split; try discriminate. cbn. lia. }
  apply (tag2_found [] (to_lower (fname f) +++ "," +++ kind) []).
  - replace ("hcl:" +++ quote +++ to_lower (fname f) +++ "," +++ kind +++ quote)
      with (blanks 0 +++ entry_text "hcl" (to_lower (fname f) +++ "," +++ kind) +++ blanks 0).
    + constructor; [|apply plain_quoted; exact P]. split; [discriminate|]. cbn.
      repeat split; try discriminate; cbn; lia.
    + unfold entry_text. cbn [blanks String.append]. rewrite append_nil_r, !append_assoc. reflexivity.
  - constructor.
  - exact P.
  - constructor. apply (chars_of (fun c => c <> ","%char)); [|exact A]. intros c Hc. apply ident_char_plain. exact Hc.
Qed.

Lemma Forall2_app_l : forall A B (R : A -> B -> Prop) a b c d, Forall2 R a c -> Forall2 R b d -> Forall2 R (a ++ b) (c ++ d).
Proof. intros. apply Forall2_app; assumption. Qed.
Lemma Forall2_Forall_l : forall A B (R : A -> B -> Prop) (P : A -> Prop) l m, (forall a b, R a b -> P a) ->
  Forall2 R l m -> Forall P l.
Proof. intros A B R P l m H F. induction F; constructor; eauto. Qed.

Section Marshal.
Variable align : list string -> string -> nat.
Variable E : env.
Variable is_zero : gtype -> hval -> bool.
Variable to_cty : gtype -> hval -> result cval.
Variable fmt_v : gtype -> hval -> string.
Variable len0 : hval -> bool.
Variable mhook : gtype -> option (hval -> result string).
Hypothesis pointer_not_nil : forall t u w, is_zero t (HPtr u w) = false.
Hypothesis nil_empty : forall t v, is_coll E t -> is_zero t v = true -> no_elems len0 v = true.
Hypothesis fmt_int : forall u w k z, under E u = TBasic k -> int_kind k -> to_cty u w = Ok (CNum (mkD z 0)) ->
  fmt_v u w = dec_Z z.
Hypothesis fmt_bool : forall u w b, under E u = TBasic "bool" -> to_cty u w = Ok (CBool b) ->
  fmt_v u w = if b then "true" else "false".

Definition method (t : gtype) : Prop := mhook t <> None.
Notation wr depth fuel := (marshal_struct align E depth is_zero to_cty fmt_v len0 mhook fuel).
Notation can_write := (can_write E is_zero to_cty len0 method).
Notation can_field := (can_field E is_zero to_cty len0 method).
Notation represents := (represents E is_zero to_cty len0).
Notation field_part := (field_part E is_zero to_cty len0).
Notation one_field := (one_field E is_zero len0).
Notation get_fields := (get_fields E is_zero len0).
Notation outliers := (outliers E is_zero len0).
Notation split_fields := (split_fields E is_zero len0).
Notation attr_lines := (attr_lines align to_cty).

(* ----- the fields ----- *)

Definition here (addr : bool) (f : gfield) (v : hval) : list mfield :=
  match coll_ptr E (ftype f) with
  | Some u => if is_zero (ftype f) v then [] else one_field f u (unpoint v) (tag_of f) addr
  | None => one_field f (ftype f) v (tag_of f) addr
  end.

Lemma get_fields_cons : forall n a o p f fs, get_fields (S n) a o p (f :: fs) =
  do here <-
    (if negb (is_exported (fname f)) then Ok []
     else
       do two <- tag2 (ftag f);
       let tag := fst two in
       if tag_skipped tag then Ok []
       else if fanon f && String.eqb tag "" then
         match under E (ftype f) with
         | TPtr u =>
           match under E u with
           | TStruct gs =>
             if is_zero (ftype f) (o (p ++ [fname f])%list) && existsb (fun g => is_exported (fname g)) gs
             then Panic "reflect: call of Field on zero Value"
             else get_fields n true o (p ++ [star (fname f)])%list gs
           | _ => Panic "reflect: NumField of non-struct type"
           end
         | TStruct gs => get_fields n a o (p ++ [fname f]) gs
         | _ => Ok []
         end
       else match coll_ptr E (ftype f) with
            | Some u => if is_zero (ftype f) (o (p ++ [fname f])%list) then Ok []
                        else Ok (one_field f u (unpoint (o (p ++ [fname f])%list)) tag a)
            | None => Ok (one_field f (ftype f) (o (p ++ [fname f])%list) tag a)
            end);
  do rest <- get_fields (S n) a o p fs;
  Ok (here ++ rest)%list.
Proof. reflexivity. Qed.

Lemma behind_name : forall p f, is_exported (fname f) = true -> behind_pointer (p ++ [fname f]) = behind_pointer p.
Proof.
  intros p f H. unfold behind_pointer. rewrite existsb_app. cbn [existsb]. rewrite orb_false_r.
  destruct (fname f) as [|c r]; [apply orb_false_r|]. destruct (Ascii.eqb c "*") eqn:C; [|apply orb_false_r].
  apply Ascii.eqb_eq in C. subst c. discriminate.
Qed.
Lemma behind_starred : forall p n, behind_pointer (p ++ [starred n]) = true.
Proof. intros p n. unfold behind_pointer. rewrite existsb_app. cbn. apply orb_true_r. Qed.

Lemma get_fields_leaves : forall p fs l, leaves E p fs l -> exists d, forall depth a o, d <= depth ->
  (forall pt q, embedded_ptr E p fs pt q -> is_zero pt (o q) = false) ->
  get_fields depth (a || behind_pointer p) o p fs =
  Ok (flat_map (fun fp => here (a || behind_pointer (snd fp)) (fst fp) (o (snd fp))) l).
Proof.
  assert (Tl : forall p f fs o, (forall pt q, embedded_ptr E p (f :: fs) pt q -> is_zero pt (o q) = false) ->
    forall pt q, embedded_ptr E p fs pt q -> is_zero pt (o q) = false).
  { intros p f fs o H pt q P. apply H.
    destruct P; [eapply ep_here|eapply ep_struct|eapply ep_ptr]; eauto; right; assumption. }
  intros p fs l L. induction L as [p|p f fs l H L IH|p f fs l k H L IH|p f fs l gs l' k He Ht Ha Hu L' IH' L IH
    |p f fs l u gs l' k He Ht Ha Hu Hu' L' IH' L IH|p f fs l k He Ht Ha Ns Np L IH|p f fs l n k He Ht Nd Na L IH].
  - exists 1. intros [|depth] a o D _; [lia|]. reflexivity.
  - destruct IH as (d & IH). exists (S d). intros [|depth] a o D P; [lia|]. rewrite get_fields_cons, H. cbn [negb bindr].
    rewrite IH; [reflexivity|lia|exact (Tl _ _ _ _ P)].
  - destruct IH as (d & IH). exists (S d). intros [|depth] a o D P; [lia|]. rewrite get_fields_cons.
    rewrite IH; [|lia|exact (Tl _ _ _ _ P)]. destruct (is_exported (fname f)); [|reflexivity]. cbn [negb]. rewrite H. reflexivity.
  - destruct IH as (d & IH), IH' as (d' & IH'). exists (S (d + d')). intros [|depth] a o D P; [lia|].
    rewrite get_fields_cons, He, Ht, Ha, Hu. cbn [negb bindr fst].
    change (tag_skipped "") with false. cbn [String.eqb andb].
    rewrite <- (behind_name p f He) at 1. rewrite IH'; [|lia|].
    2:{ intros pt q X. apply P. eapply ep_struct; eauto. left. reflexivity. }
    cbn [bindr]. rewrite IH; [|lia|exact (Tl _ _ _ _ P)]. cbn [bindr]. rewrite flat_map_app. reflexivity.
  - destruct IH as (d & IH), IH' as (d' & IH'). exists (S (d + d')). intros [|depth] a o D P; [lia|].
    rewrite get_fields_cons, He, Ht, Ha, Hu, Hu'. cbn [negb bindr fst].
    change (tag_skipped "") with false. cbn [String.eqb andb].
    rewrite P by (eapply ep_here; eauto; left; reflexivity). cbn [andb].
    assert (X := IH' depth a o). rewrite behind_starred, orb_true_r in X. change (star (fname f)) with (starred (fname f)).
    rewrite X; [|lia|].
    2:{ intros pt q Y. apply P. eapply ep_ptr; eauto. left. reflexivity. }
    cbn [bindr]. rewrite IH; [|lia|exact (Tl _ _ _ _ P)]. cbn [bindr]. rewrite flat_map_app. reflexivity.
  - destruct IH as (d & IH). exists (S d). intros [|depth] a o D P; [lia|].
    rewrite get_fields_cons, He, Ht, Ha. cbn [negb bindr fst].
    change (tag_skipped "") with false. cbn [String.eqb andb].
    assert (X : match under E (ftype f) with TPtr _ => False | TStruct _ => False | _ => True end).
    { destruct (under E (ftype f)) eqn:U; try exact I; [apply Np|apply Ns]; eexists; exact U. }
    destruct (under E (ftype f)); try contradiction; cbn [bindr]; (rewrite IH; [reflexivity|lia|exact (Tl _ _ _ _ P)]).
  - destruct IH as (d & IH). exists (S d). intros [|depth] a o D P; [lia|].
    rewrite get_fields_cons, He, Ht. cbn [negb bindr fst]. rewrite (skipped_dash _ _ _ Ht).
    apply String.eqb_neq in Nd. rewrite Nd.
    assert (X : fanon f && String.eqb n "" = false).
    { destruct (fanon f) eqn:A; [|reflexivity]. apply String.eqb_neq. apply Na. reflexivity. }
    rewrite X. cbn [flat_map fst snd]. unfold here at 1. unfold tag_of. rewrite Ht. rewrite (behind_name p f He).
    destruct (coll_ptr E (ftype f)) as [u|]; [destruct (is_zero (ftype f) _)|]; cbn [bindr];
      (rewrite IH; [reflexivity|lia|exact (Tl _ _ _ _ P)]).
Qed.

(* ----- attributes ----- *)

(* The field mf gives the attribute i. *)
Definition attr_ok (level : nat) (mf : mfield) (i : item) : Prop :=
  exists k c t, tag2 (ftag (m_field mf)) = Ok (item_name i, k) /\ attr_kind k /\
    to_cty (m_type mf) (m_value mf) = Ok c /\ cty_text align 0 c = Ok t /\
    no_nl (item_name i) /\
    line_ok (item_name i +++ " = " +++ replace_nl (lead (S level)) t) i.

Lemma attr_lines_ok : forall level mfs its, Forall2 (attr_ok level) mfs its -> NoDup (map item_name its) ->
  exists s ls, attr_lines mfs = Ok s /\ Forall2 line_ok ls its /\
    replace_nl (lead (S level)) s = fold_right (fun l r => l +++ nl +++ lead (S level) +++ r) "" ls.
Proof.
  intros level mfs its F. induction F as [|mf i mfs its (k & c & t & Ht & Hk & Hc & Et & Hn & Ho) F IH]; intros N.
  - exists "", []. repeat split. constructor.
  - cbn [map] in N. inversion N as [|? ? N1 N2]; subst. destruct (IH N2) as (s & ls & Es & Fl & Er).
    exists ((item_name i +++ " = " +++ t +++ nl) +++ s), ((item_name i +++ " = " +++ replace_nl (lead (S level)) t) :: ls).
    split; [|split].
    + cbn [MarshalModel.attr_lines]. rewrite Ht. cbn [bindr fst snd].
      assert (X : existsb (String.eqb k) ["block"; "body"; "remain"] = false /\ known_kind k = true)
        by (destruct Hk as [->|[->| ->]]; split; reflexivity).
      destruct X as [-> ->]. cbn [negb].
      assert (T : tag_in (map m_field mfs) (item_name i) = false).
      { clear -F N1. unfold tag_in. induction F as [|mf2 i2 mfs its (k & c & t & Ht & _) F IH]; [reflexivity|].
        cbn [map existsb]. unfold tag_of at 1. rewrite Ht. cbn in N1. rewrite IH by tauto.
        destruct (String.eqb_spec (item_name i2) (item_name i)); [|reflexivity]. exfalso. apply N1. left. assumption. }
      rewrite T, Hc, Et. cbn [bindr]. rewrite Es. reflexivity.
    + constructor; assumption.
    + rewrite replace_app, Er. cbn [fold_right]. rewrite !replace_app, replace_newline.
      rewrite (replace_none _ (item_name i) Hn), (replace_none _ " = ") by reflexivity.
      rewrite !append_assoc. reflexivity.
Qed.

(* ----- what one field gives ----- *)

Definition dyn (addr : bool) (t : gtype) (v : hval) (pt : gtype) (x : hval) : Prop :=
  if addr then under E pt = TPtr t /\ exists u, x = HPtr u v else pt = t /\ x = v.

Definition writes (addr : bool) (t : gtype) (v : hval) : Prop :=
  forall level kn, exists labels its arr d,
    represents addr t v kn labels its /\ Forall quotable labels /\ Forall2 line_ok arr its /\
    NoDup (attr_names its) /\
    forall depth fuel pt x, d <= depth -> d <= fuel -> dyn addr t v pt x ->
      wr depth fuel pt x level kn = Ok (final level labels arr).

Definition gives (addr : bool) (f : gfield) (v : hval) : Prop :=
  ident (hcl_name f) -> (exists n k, tag2 (ftag f) = Ok (n, k)) ->
  forall level kn, exists p afs os d,
    field_part addr kn f v p /\
    (forall mf, In mf (here addr f v) -> fname (m_field mf) = fname f) /\ List.length (here addr f v) <= 1 /\
    (forall depth fuel, d <= depth -> d <= fuel -> forall rest q,
      split_fields (wr depth fuel) level kn rest = Ok q ->
      split_fields (wr depth fuel) level kn (here addr f v ++ rest) =
        Ok (MP (pt_labels p ++ p_ls q) (afs ++ p_attrs q) (os ++ p_outs q))) /\
    Forall2 (attr_ok level) afs (pt_attrs p) /\
    Forall2 (fun o i => line_ok (out_line o) i) os (pt_outs p) /\
    Forall quotable (pt_labels p) /\
    (forall i, In i (pt_attrs p ++ pt_outs p) -> item_name i = hcl_name f) /\
    List.length (pt_attrs p) + List.length (attr_names (pt_outs p)) <= 1.

(* The tag of a field in the list, with or without a tag in the type. *)
Lemma tag_here : forall f pass, ident (hcl_name f) -> (exists n k, tag2 (ftag f) = Ok (n, k)) ->
  exists k, tag2 (ftag (if String.eqb (tag_of f) "" then retag f (if pass : bool then "block" else "optional") else f))
            = Ok (hcl_name f, k) /\ (pass = false -> attr_kind (hcl_kind f) -> attr_kind k) /\
            (hcl_kind f <> "" -> k = hcl_kind f).
Proof.
  intros f pass I (n & k & T). unfold tag_of, hcl_name, hcl_kind in *. rewrite T in *.
  destruct (string_dec n "") as [->|N].
  - cbn [String.eqb]. exists (if pass then "block" else "optional"). split.
    { apply retag_tag; [exact I|]. destruct pass; cbn; repeat split; try discriminate; cbn; lia. }
    split; [intros ->; right; right; reflexivity|congruence].
  - apply String.eqb_neq in N. rewrite N. exists k. split; [exact T|]. split; auto.
Qed.

Lemma one_field_name : forall f t v tag a mf, In mf (one_field f t v tag a) -> fname (m_field mf) = fname f.
Proof.
  intros f t v tag a mf H. unfold MarshalModel.one_field in H.
  destruct (match under E t with TIface _ | TPtr _ | TStruct _ => _ | _ => _ end) as [pass|]; [|destruct H].
  destruct H as [<-|[]]. cbn. destruct (String.eqb tag ""); reflexivity.
Qed.
Lemma one_field_len : forall f t v tag a, List.length (one_field f t v tag a) <= 1.
Proof.
  intros f t v tag a. unfold MarshalModel.one_field.
  destruct (match under E t with TIface _ | TPtr _ | TStruct _ => _ | _ => _ end) as [pass|]; cbn; lia.
Qed.
Lemma here_name : forall addr f v mf, In mf (here addr f v) -> fname (m_field mf) = fname f.
Proof.
  intros addr f v mf H. unfold here in H. destruct (coll_ptr E (ftype f)); [destruct (is_zero (ftype f) v); [destruct H|]|];
    exact (one_field_name _ _ _ _ _ _ H).
Qed.
Lemma here_len : forall addr f v, List.length (here addr f v) <= 1.
Proof.
  intros addr f v. unfold here. destruct (coll_ptr E (ftype f)); [destruct (is_zero (ftype f) v); [cbn; lia|]|];
    apply one_field_len.
Qed.

Lemma is_coll_kind : forall t, is_coll E t <-> kind_is_coll E t = true.
Proof.
  intros t. unfold is_coll, has_elem, kind_is_coll. split.
  - intros (et & [->|(kt & ->)]); reflexivity.
  - destruct (under E t) eqn:U; try discriminate; intros _; eexists; [left|right; eexists]; reflexivity.
Qed.
Lemma coll_ptr_none : forall t, (forall u, under E t = TPtr u -> ~ is_coll E u) -> coll_ptr E t = None.
Proof.
  intros t H. unfold coll_ptr. destruct (under E t) as [|u| | | | | |] eqn:U; try reflexivity.
  destruct (kind_is_coll E u) eqn:K; [|reflexivity]. exfalso. apply (H u eq_refl). apply is_coll_kind. exact K.
Qed.
Lemma coll_ptr_some : forall t u, under E t = TPtr u -> is_coll E u -> coll_ptr E t = Some u.
Proof. intros t u U C. unfold coll_ptr. rewrite U. apply is_coll_kind in C. rewrite C. reflexivity. Qed.

Lemma here_through : forall addr f v t w, through E (ftype f) v t w -> here addr f v = one_field f t w (tag_of f) addr.
Proof.
  intros addr f v t w H. unfold here. destruct H as [t0 v0 H|t0 u u' w H C].
  - rewrite coll_ptr_none by exact H. reflexivity.
  - rewrite (coll_ptr_some _ _ H C), pointer_not_nil. reflexivity.
Qed.

Lemma empty_no_elems : forall v, empty len0 v <-> no_elems len0 v = true.
Proof.
  intros v. split.
  - intros [| | |n [->| ->]|n [->| ->]|s H]; try reflexivity. exact H.
  - destruct v as [s|s|n|o|t v|t v|l|m|m]; cbn; try discriminate.
    + apply em_other.
    + destruct n as [|s|b|z|z|d| |d| |m| |l]; try discriminate.
      * intros _. apply em_object. auto.
      * destruct m; [|discriminate]. intros _. apply em_object. auto.
      * intros _. apply em_list. auto.
      * destruct l; [|discriminate]. intros _. apply em_list. auto.
    + destruct l; [constructor|discriminate].
    + destruct m; [constructor|discriminate].
    + destruct m; [constructor|discriminate].
Qed.

(* A field that gives nothing. *)
Lemma gives_nothing : forall addr f v, (forall kn, field_part addr kn f v nothing) ->
  (ident (hcl_name f) -> (exists n k, tag2 (ftag f) = Ok (n, k)) ->
   here addr f v = [] \/ exists mf, here addr f v = [mf] /\ m_out mf = true /\ forall depth fuel level,
     outliers (wr depth fuel) (m_field mf) (m_type mf) (m_value mf) (m_addr mf) level = Ok []) -> gives addr f v.
Proof.
  intros addr f v P H I T level kn. exists nothing, [], [], 0. specialize (H I T).
  split; [apply P|]. split; [apply here_name|]. split; [apply here_len|]. split.
  - intros depth fuel _ _ rest [ls at_ os] Hq. destruct H as [->|(mf & -> & Mo & O)]; [exact Hq|].
    cbn [app MarshalModel.split_fields]. rewrite Mo, O. cbn [bindr]. rewrite Hq. reflexivity.
  - cbn [nothing pt_labels pt_attrs pt_outs app]. split; [constructor|]. split; [constructor|]. split; [constructor|].
    split; [intros i []|cbn; lia].
Qed.

(* A field written by getOutlier. *)
Lemma gives_out : forall addr f v, (ident (hcl_name f) -> forall level kn, exists items os d mf,
    field_part addr kn f v (Part [] [] items) /\
    here addr f v = [mf] /\ m_out mf = true /\
    m_field mf = (if String.eqb (tag_of f) "" then retag f "block" else f) /\
    (forall depth fuel, d <= depth -> d <= fuel -> hcltag (ftag (m_field mf)) = Ok (hcl_name f) ->
      outliers (wr depth fuel) (m_field mf) (m_type mf) (m_value mf) (m_addr mf) level = Ok os) /\
    Forall2 (fun o i => line_ok (out_line o) i) os items /\
    (forall i, In i items -> item_name i = hcl_name f) /\ List.length (attr_names items) <= 1) -> gives addr f v.
Proof.
  intros addr f v H I T level kn. destruct (H I level kn) as (items & os & d & mf & P & Hh & Mo & Mf & O & F & Nm & L).
  exists (Part [] [] items), [], os, d. split; [exact P|]. split; [apply here_name|]. split; [apply here_len|]. split.
  - intros depth fuel D1 D2 rest [ls at_ os'] Hq. rewrite Hh. cbn [app MarshalModel.split_fields].
    destruct (tag_here f true I T) as (k & Ht & _ & _). rewrite Mo, O; [|exact D1|exact D2|].
    + cbn [bindr]. rewrite Hq. reflexivity.
    + rewrite Mf. unfold hcltag. rewrite Ht. reflexivity.
  - cbn [pt_labels pt_attrs pt_outs app List.length]. split; [constructor|]. split; [exact F|].
    split; [constructor|]. split; [exact Nm|]. lia.
Qed.

Lemma one_field_out : forall f t v a, (match under E t with
    | TIface _ | TPtr _ | TStruct _ => True
    | TSlice et | TMap _ et => no_elems len0 v = true \/ complex_kind E et = true
    | _ => False end) ->
  one_field f t v (tag_of f) a = [MF (if String.eqb (tag_of f) "" then retag f "block" else f) t v true a].
Proof.
  intros f t v a H. unfold MarshalModel.one_field. destruct (under E t); try contradiction; try reflexivity.
  - replace (no_elems len0 v || complex_kind E _) with true; [reflexivity|].
    symmetry. apply orb_true_iff. exact H.
  - replace (no_elems len0 v || complex_kind E _) with true; [reflexivity|].
    symmetry. apply orb_true_iff. exact H.
Qed.

Lemma typed_zero : forall w t v level, is_zero t v = true -> typed_level E is_zero w t v level = Ok "".
Proof. intros w t v level Z. unfold typed_level. destruct v; cbn [data_bytes]; rewrite Z; reflexivity. Qed.
Lemma typed_written : forall (w : writer) t v level, is_zero t v = false -> is_struct E t \/ is_pointer E t ->
  typed_level E is_zero w t v level = w t v level [].
Proof.
  intros w t v level Z U. unfold typed_level.
  destruct U as [(fs & U)|(u & U)]; destruct v; cbn [data_bytes]; rewrite Z, U; cbn [list_of];
    destruct (w t _ level []); reflexivity.
Qed.
Lemma typed_iface_ptr : forall (w : writer) t u v level, is_zero t (HPtr u v) = false -> is_interface E t ->
  typed_level E is_zero w t (HPtr u v) level = w (TPtr u) (HPtr u v) level [].
Proof.
  intros w t u v level Z (ms & U). unfold typed_level. cbn [data_bytes]. rewrite Z, U. cbn [list_of].
  destruct (w (TPtr u) _ level []); reflexivity.
Qed.
Lemma typed_dyn : forall (w : writer) t u v level, is_zero t (HDyn u v) = false -> is_interface E t ->
  typed_level E is_zero w t (HDyn u v) level = typed_level E is_zero w u v level.
Proof. intros w t u v level Z (ms & U). unfold typed_level. cbn [data_bytes]. rewrite Z, U. reflexivity. Qed.
Lemma typed_generic : forall (w : writer) t n level, is_zero t (HNative n) = false ->
  is_coll E t -> typed_level E is_zero w t (HNative n) level = do b <- marshal_level n level None; Ok (bytes b).
Proof. intros w t n level Z (et & [U|(kt & U)]); unfold typed_level; cbn [data_bytes]; rewrite Z, U; reflexivity. Qed.

(* ----- the cases ----- *)

Lemma case_absent : forall addr f v, absent E is_zero addr (ftype f) v -> gives addr f v.
Proof.
  intros addr f v (Z & A). apply gives_nothing; [intros; constructor; split; assumption|]. intros I T.
  destruct (tag_here f true I T) as (k & Ht & _).
  unfold here. destruct (coll_ptr E (ftype f)) as [u|] eqn:C; [rewrite Z; left; reflexivity|].
  assert (Tg : hcltag (ftag (if String.eqb (tag_of f) "" then retag f "block" else f)) = Ok (hcl_name f))
    by (unfold hcltag; rewrite Ht; reflexivity).
  destruct (under E (ftype f)) eqn:U.
  1: { exfalso. eapply under_not_named. exact U. }
  all: try (left; unfold MarshalModel.one_field; rewrite U, Z; reflexivity).
  all: right; eexists; (split; [apply one_field_out; rewrite U|split; [reflexivity|]]).
  all: try exact Logic.I.
  all: try (left; apply (nil_empty (ftype f)); [apply is_coll_kind; unfold kind_is_coll; rewrite U; reflexivity|exact Z]).
  all: intros depth fuel level; cbn [m_field m_type m_value m_addr]; unfold MarshalModel.outliers; rewrite Tg; cbn [bindr]; rewrite U;
    try rewrite Z; try reflexivity.
  all: try (rewrite typed_zero by exact Z; reflexivity).
  rewrite A by (eexists; exact U). rewrite typed_zero by exact Z. reflexivity.
Qed.

Lemma case_hollow : forall addr f v, hollow E is_zero (ftype f) v -> gives addr f v.
Proof.
  intros addr f v Hv. apply gives_nothing; [intros kn; exact (fp_hollow _ _ _ _ _ kn _ _ Hv)|]. intros I T.
  destruct Hv as ((ms & U) & u & w & -> & Z). destruct (tag_here f true I T) as (k & Ht & _).
  assert (Tg : hcltag (ftag (if String.eqb (tag_of f) "" then retag f "block" else f)) = Ok (hcl_name f))
    by (unfold hcltag; rewrite Ht; reflexivity).
  right. eexists. split; [|split; [|]].
  - unfold here. unfold coll_ptr. rewrite U. apply one_field_out. rewrite U. exact Logic.I.
  - reflexivity.
  - intros depth fuel level. cbn [m_field m_type m_value m_addr]. unfold MarshalModel.outliers. rewrite Tg. cbn [bindr]. rewrite U.
    destruct (is_zero (ftype f) (HDyn u w)) eqn:Zf; [rewrite typed_zero by exact Zf; reflexivity|].
    rewrite typed_dyn; [|exact Zf|eexists; exact U]. rewrite typed_zero by exact Z. reflexivity.
Qed.

Lemma coll_cases : forall t, is_coll E t -> exists et, under E t = TSlice et \/ exists kt, under E t = TMap kt et.
Proof. intros t H. exact H. Qed.

Lemma case_absent_coll : forall addr f v t w, through E (ftype f) v t w -> is_coll E t -> is_zero t w = true -> gives addr f v.
Proof.
  intros addr f v t w Th C Z. apply gives_nothing; [intros kn; exact (fp_absent_coll _ _ _ _ _ kn _ _ _ _ Th C Z)|].
  intros I T. destruct (tag_here f true I T) as (k & Ht & _).
  right. rewrite (here_through _ _ _ _ _ Th). eexists. split; [|split; [|]].
  - apply one_field_out. assert (N := nil_empty t w C Z). destruct C as (et & [U|(kt & U)]); rewrite U; left; exact N.
  - reflexivity.
  - intros depth fuel level. cbn [m_field m_type m_value m_addr]. unfold MarshalModel.outliers, hcltag. rewrite Ht. cbn [bindr fst].
    destruct C as (et & [U|(kt & U)]); rewrite U, Z; reflexivity.
Qed.

Lemma case_label : forall addr f s k, under E (ftype f) = TBasic k -> hcl_kind f = "label" ->
  is_zero (ftype f) (HText s) = false -> quotable s -> gives addr f (HText s).
Proof.
  intros addr f s k U K Z Q I T level kn.
  set (same := match kn with k :: _ => String.eqb k s | [] => false end).
  set (p := if same then nothing else Part [s] [] []).
  exists p, [], [], 0. split; [|split; [apply here_name|split; [apply here_len|split; [|split; [|split; [|split; [|split]]]]]]].
  - unfold p, same. destruct kn as [|k0 kn].
    + apply fp_label; [exact K|exact Z|discriminate].
    + destruct (String.eqb_spec k0 s) as [->|N].
      * apply fp_label_key; [exact K|exact Z|reflexivity].
      * apply fp_label; [exact K|exact Z|]. cbn. congruence.
  - intros depth fuel _ _ rest [ls at_ os] Hq. unfold here, coll_ptr. rewrite U.
    unfold MarshalModel.one_field. rewrite U, Z. cbn [app MarshalModel.split_fields m_out m_field m_value].
    destruct (tag_here f false I T) as (k1 & Ht & _ & Hk). rewrite Ht. cbn [bindr snd]. rewrite Hk by congruence. rewrite K.
    cbn [String.eqb Ascii.eqb Bool.eqb]. rewrite Hq. cbn [bindr p_ls p_attrs p_outs app]. fold same. unfold p.
    destruct same; reflexivity.
  - unfold p. destruct same; constructor.
  - unfold p. destruct same; constructor.
  - unfold p. destruct same; cbn; repeat constructor. exact Q.
  - unfold p. destruct same; intros i [].
  - unfold p. destruct same; cbn; lia.
Qed.

Lemma simple_not_complex : forall t, simple E t -> complex_kind E t = false.
Proof. intros t (u & U & H). unfold complex_kind. rewrite U. destruct u; try contradiction; reflexivity. Qed.

Lemma case_attr : forall addr f v c, attr_kind (hcl_kind f) -> is_zero (ftype f) v = false ->
  attr_type E len0 (ftype f) v -> to_cty (ftype f) v = Ok c -> writable c -> gives addr f v.
Proof.
  intros addr f v c K Z A C W I T level kn.
  destruct (writable_text align c W 0) as (t & Et & So & Rd).
  destruct (Rd (lead (S level)) (scans0_lead _)) as (e & ts & He & Hs & Hm).
  destruct (tag_here f false I T) as (k1 & Ht & Hk & _).
  assert (Tk : match under E (ftype f) with TPtr _ => False | _ => True end).
  { destruct A as [(u & U & S0)|(et & [U|(kt & U)] & _)]; rewrite U; try exact Logic.I. destruct u; exact S0 || exact Logic.I. }
  assert (Cp : forall g, ftype g = ftype f -> coll_ptr E (ftype g) = None).
  { intros g ->. unfold coll_ptr. destruct (under E (ftype f)); contradiction || reflexivity. }
  assert (Hh : here addr f v = [MF (if String.eqb (tag_of f) "" then retag f "optional" else f) (ftype f) v false addr]).
  { unfold here. rewrite Cp by reflexivity. unfold MarshalModel.one_field. rewrite Z.
    destruct A as [(u & U & S0)|(et & Et' & Si & Ne)].
    - rewrite U. destruct u; contradiction || reflexivity.
    - rewrite empty_no_elems in Ne. apply not_true_is_false in Ne. apply simple_not_complex in Si.
      destruct Et' as [U|(kt & U)]; rewrite U, Ne, Si; reflexivity. }
  set (mf := MF (if String.eqb (tag_of f) "" then retag f "optional" else f) (ftype f) v false addr) in *.
  exists (Part [] [IAttr (hcl_name f) e] []), [mf], [], 0.
  split; [exact (fp_attr _ _ _ _ _ kn _ _ _ _ K Z A C Hm)|].
  split; [apply here_name|split; [apply here_len|split; [|split; [|split; [|split; [|split]]]]]].
  - intros depth fuel _ _ rest [ls at_ os] Hq. rewrite Hh. cbn [app MarshalModel.split_fields m_out m_field m_value mf].
    rewrite Ht. cbn [bindr snd]. specialize (Hk eq_refl K).
    replace (String.eqb k1 "label") with false by (destruct Hk as [->|[->| ->]]; reflexivity).
    rewrite Cp by (destruct (String.eqb (tag_of f) ""); reflexivity). rewrite Hq. reflexivity.
  - cbn [pt_attrs]. constructor; [|constructor]. exists k1, c, t. cbn [item_name m_field m_type m_value mf].
    split; [exact Ht|]. split; [exact (Hk eq_refl K)|]. split; [exact C|]. split; [exact Et|].
    split; [apply ident_no_nl; exact I|]. split.
    + do 2 apply solid_app. destruct So as (q & x & -> & Hx). rewrite replace_app.
      rewrite (replace_none _ (str1 x)); [apply solid_app, solid_lit; exact Hx|].
      unfold no_nl, str1. cbn. destruct (Ascii.eqb x "010") eqn:X; [|reflexivity].
      apply Ascii.eqb_eq in X. subst x. discriminate.
    + exists (TIdent (hcl_name f) :: TEq :: ts). split; [apply scans_line; assumption|constructor; exact He].
  - constructor.
  - constructor.
  - intros i [<-|[]]. reflexivity.
  - cbn. lia.
Qed.

Lemma number_kinds : forall k, int_kind k -> k <> "string" /\ number_kind k = true.
Proof.
  intros k H. unfold int_kind in H. cbn [In] in H.
  repeat (destruct H as [<-|H]; [split; [discriminate|reflexivity]|]). destruct H.
Qed.

(* The text of a number or boolean. *)
Lemma number_text : forall u w c, number E to_cty u w c -> exists k e ts, under E u = TBasic k /\ k <> "string" /\
  number_kind k = true /\ scans (fmt_v u w) ts /\ solid (fmt_v u w) /\ etoks e ts /\ means e c.
Proof.
  intros u w c [u0 w0 k z U K C|u0 w0 b U C].
  - destruct (number_kinds k K) as [K1 K2]. exists k, (ENum z), (if (z <? 0)%Z then [TMinus; TNum (- z)] else [TNum z]).
    rewrite (fmt_int _ _ _ _ U K C). split; [exact U|]. split; [exact K1|]. split; [exact K2|].
    split; [apply scans_int|]. split; [apply dec_Z_solid|]. split; [|constructor].
    destruct (z <? 0)%Z; [|constructor]. assert (X := et_neg (- z)). rewrite Z.opp_involutive in X. exact X.
  - exists "bool", (EBool b), [TIdent (if b then "true" else "false")]. rewrite (fmt_bool _ _ _ U C).
    split; [exact U|]. split; [discriminate|]. split; [reflexivity|].
    split; [apply scans_ident; destruct b; split; reflexivity|].
    split; [destruct b; [exists "tru", "e"%char|exists "fals", "e"%char]; split; reflexivity|].
    split; [destruct b; [exact (et_kw "true")|exact (et_kw "false")]|constructor].
Qed.

Lemma attr_line : forall name e t ts, ident name -> etoks e ts -> scans t ts -> solid t ->
  line_ok (name +++ " = " +++ t) (IAttr name e).
Proof.
  intros name e t ts I He Hs So. split; [do 2 apply solid_app; exact So|].
  exists (TIdent name :: TEq :: ts). split; [apply scans_line; assumption|constructor; exact He].
Qed.

Lemma blank_cons : forall name ls eq s, solid s -> unless_blank name ls eq s = [MO name ls s eq].
Proof. intros name ls eq s H. unfold unless_blank. rewrite (solid_not_blank s H). reflexivity. Qed.

Lemma case_number : forall addr f u u' w c, under E (ftype f) = TPtr u -> ~ method (ftype f) -> number E to_cty u w c ->
  gives addr f (HPtr u' w).
Proof.
  intros addr f u u' w c U M Nu. apply gives_out. intros I level kn.
  destruct (number_text u w c Nu) as (k & e & ts & Uu & K1 & K2 & Sc & So & He & Hm).
  exists [IAttr (hcl_name f) e], [MO (hcl_name f) [] ("= " +++ fmt_v u w) false], 1. eexists.
  split; [exact (fp_number _ _ _ _ _ kn f u u' w c e U Nu Hm)|]. split; [|split; [|split; [|split; [|split; [|split]]]]].
  - unfold here. rewrite coll_ptr_none.
    + apply one_field_out. rewrite U. exact Logic.I.
    + intros u0 U0 (et & [X|(kt & X)]); rewrite U in U0; injection U0 as <-; rewrite Uu in X; discriminate.
  - reflexivity.
  - reflexivity.
  - intros depth [|fuel] _ D Tg; [lia|]. cbn [m_field m_type m_value m_addr] in *. unfold MarshalModel.outliers. rewrite Tg.
    cbn [bindr]. rewrite U. rewrite typed_written; [|apply pointer_not_nil|right; eexists; exact U]. cbn [marshal_struct].
    unfold method in M. destruct (mhook (ftype f)); [exfalso; apply M; discriminate|].
    rewrite U, Uu, pointer_not_nil, K2. apply String.eqb_neq in K1. rewrite K1. cbn [unpoint bindr].
    rewrite blank_cons by (apply solid_app; exact So). reflexivity.
  - constructor; [|constructor].
    change (out_line _) with (hcl_name f +++ " = " +++ fmt_v u w). apply (attr_line _ _ _ ts); assumption.
  - intros i [<-|[]]. reflexivity.
  - cbn. lia.
Qed.

Lemma case_empty : forall addr f v t w, through E (ftype f) v t w -> is_coll E t -> is_zero t w = false -> empty len0 w ->
  gives addr f v.
Proof.
  intros addr f v t w Th C Z Em. assert (Ne := proj1 (empty_no_elems w) Em). apply gives_out. intros I level kn.
  destruct C as (et & [U|(kt & U)]).
  - exists [IAttr (hcl_name f) (ETuple [])], [MO (hcl_name f) [] "[]" true], 0. eexists.
    split; [exact (fp_empty_slice _ _ _ _ _ kn f v t w et Th U Z Em)|].
    split; [rewrite (here_through _ _ _ _ _ Th); apply one_field_out; rewrite U; left; exact Ne|].
    split; [reflexivity|split; [reflexivity|split; [|split; [|split]]]].
    + intros depth fuel _ _ Tg. cbn [m_field m_type m_value m_addr] in *. unfold MarshalModel.outliers. rewrite Tg.
      cbn [bindr]. rewrite U, Z, Ne. reflexivity.
    + constructor; [|constructor]. change (out_line _) with (hcl_name f +++ " = " +++ "[]").
      apply (attr_line _ _ _ [TLBrack; TRBrack]); [exact I|do 2 constructor|apply scans0_scans; exact scans0_empty|].
      exists "[", "]"%char. split; reflexivity.
    + intros i [<-|[]]. reflexivity.
    + cbn. lia.
  - exists [IBlock (hcl_name f) [] []], [MO (hcl_name f) [] ("{" +++ nl +++ lead (S level) +++ "}") false], 0. eexists.
    split; [exact (fp_empty_map _ _ _ _ _ kn f v t w kt et Th U Z Em)|].
    split; [rewrite (here_through _ _ _ _ _ Th); apply one_field_out; rewrite U; left; exact Ne|].
    split; [reflexivity|split; [reflexivity|split; [|split; [|split]]]].
    + intros depth fuel _ _ Tg. cbn [m_field m_type m_value m_addr] in *. unfold MarshalModel.outliers. rewrite Tg.
      cbn [bindr]. rewrite U, Z, Ne. reflexivity.
    + constructor; [|constructor]. apply (block_line _ [] [] _ []); [exact I|constructor|]. split.
      { do 3 apply solid_app. exists "", "}"%char. split; reflexivity. }
      exists [TRBrace]. split; [|constructor; exact (bt_end true)].
      apply (scans0_app "{" _ [TLBrace]); [exact scans0_lbrace|].
      apply (scans0_app nl _ [TNl]); [exact scans0_nl|].
      apply (scans0_app (lead (S level)) _ [] [TRBrace]); [apply scans0_lead|exact scans0_rbrace].
    + intros i [<-|[]]. reflexivity.
    + cbn. lia.
Qed.

Lemma iface_complex : forall t, is_interface E t -> complex_kind E t = true.
Proof. intros t (ms & U). unfold complex_kind. rewrite U. reflexivity. Qed.

Lemma case_list : forall addr f v t et l, through E (ftype f) v t (HNative (NList l)) -> under E t = TSlice et ->
  is_interface E et -> is_zero t (HNative (NList l)) = false -> l <> [] -> supported InBody (NList l) -> gives addr f v.
Proof.
  intros addr f v t et l Th U Ie Z Nl Su. apply gives_out. intros I level kn.
  destruct (list_any l (fun x lv _ => proj1 (expr_text x) lv)) with (level := S level) (kn := @None string)
    as (arr & Ea & e & ts & He & Hs & Hg & Hv).
  { intros x Hx. inversion Su as [p v0 Sc Zs| |p l' H| | | | | |]; subst; [inversion Sc|]. apply H. exact Hx. }
  exists [IAttr (hcl_name f) e], [MO (hcl_name f) [] (list_text (S level) arr) true], 0. eexists.
  split; [exact (fp_list _ _ _ _ _ kn f v t et l e Th U Ie Nl Hg Hv)|].
  split; [rewrite (here_through _ _ _ _ _ Th); apply one_field_out; rewrite U; right; apply iface_complex; exact Ie|].
  split; [reflexivity|split; [reflexivity|split; [|split; [|split]]]].
  - intros depth fuel _ _ Tg. cbn [m_field m_type m_value m_addr] in *. unfold MarshalModel.outliers. rewrite Tg.
    cbn [bindr]. rewrite U, Z. assert (X : no_elems len0 (HNative (NList l)) = false) by (destruct l; [congruence|reflexivity]).
    rewrite X. cbn zeta. rewrite typed_generic; [|exact Z|eexists; left; exact U]. rewrite Ea. cbn [bindr bytes].
    rewrite blank_cons by apply list_text_solid. reflexivity.
  - constructor; [|constructor]. change (out_line _) with (hcl_name f +++ " = " +++ list_text (S level) arr).
    apply (attr_line _ _ _ ts); [exact I|exact He|exact Hs|apply list_text_solid].
  - intros i [<-|[]]. reflexivity.
  - cbn. lia.
Qed.

Lemma case_map : forall addr f v t kt et m, through E (ftype f) v t (HNative (NMap m)) -> under E t = TMap kt et ->
  is_interface E et -> is_zero t (HNative (NMap m)) = false -> m <> [] -> body_map m -> gives addr f v.
Proof.
  intros addr f v t kt et m Th U Ie Z Nm Bm. apply gives_out. intros I level kn.
  destruct (body_text_all m Bm (S level) None Logic.I) as (arr & its & Ea & F & Nd & Ne & V).
  destruct (block_toks (S level) arr its F Nd) as (ts & T1 & T2).
  exists [IBlock (hcl_name f) [] its], [MO (hcl_name f) [] (block_text (S level) arr) false], 0. eexists.
  split.
  { apply (fp_map _ _ _ _ _ kn f v t kt et m its Th U Ie Nm); [|exact V].
    clear -F. induction F as [|line i arr its (? & ? & _ & _ & _ & _ & G) F IH]; intros j J; [destruct J|].
    destruct J as [<-|J]; [exact G|exact (IH j J)]. }
  split; [rewrite (here_through _ _ _ _ _ Th); apply one_field_out; rewrite U; right; apply iface_complex; exact Ie|].
  split; [reflexivity|split; [reflexivity|split; [|split; [|split]]]].
  - intros depth fuel _ _ Tg. cbn [m_field m_type m_value m_addr] in *. unfold MarshalModel.outliers. rewrite Tg.
    cbn [bindr]. rewrite U, Z. assert (X : no_elems len0 (HNative (NMap m)) = false) by (destruct m; [congruence|reflexivity]).
    rewrite X. cbn zeta. rewrite typed_generic; [|exact Z|eexists; right; eexists; exact U]. rewrite marshal_map_S, Ea. cbn [bindr bytes].
    destruct Ie as (ms & ->). rewrite blank_cons by apply block_text_solid. reflexivity.
  - constructor; [|constructor]. apply (block_line _ [] [] _ its); [exact I|constructor|].
    split; [apply block_text_solid|]. exists ts. split; [exact T1|exact T2].
  - intros i [<-|[]]. reflexivity.
  - cbn. lia.
Qed.

(* Elements that are data are not written one by one. *)
Lemma data_no_loop : forall p et x n, data E is_zero p et x n -> is_coll E et \/ (is_interface E et /\ p = InList) ->
  is_loop E is_zero et x = false.
Proof.
  intros p et x n D [(e & [U|(kt & U)])|((ms & U) & Hp)]; unfold is_loop; rewrite U; try reflexivity.
  inversion D as [p0 s Q Z|p0 k n0 K S0 Z|p0 t n0 G Z N Su|p0 t u w n0 Ui Nu Z Zu Du|t v et' U' Z|p0 t v Np M Z|p0 t et' l ns U' Z El|p0 t kt et' m ns U' Uk Ni Z Nd Mm]; subst;
    try (cbn in U; discriminate U); try congruence; try apply andb_false_r.
  inversion Du as [p0 s Q Z'|p0 k n0 K S0 Z'|p0 t n0 G Z' N Su|p0 t u' w' n0 Ui' Nu' Z' Zu' Du'|t v et' U' Z'|p0 t v Np M Z'|p0 t et' l ns U' Z' El|p0 t kt et' m ns U' Uk Ni Z' Nd Mm]; subst;
    try (cbn [GoType.under]; apply andb_false_r); try congruence.
  - destruct G as [G|[(e & l & Uu & _)|(kt & e & m & Uu & _)]]; [destruct (Nu G)|rewrite Uu; apply andb_false_r..].
  - destruct U' as [U'|U']; rewrite U'; apply andb_false_r.
  - rewrite U'. apply andb_false_r.
Qed.

Lemma case_data : forall addr f v t w n, through E (ftype f) v t w -> data_field E is_zero t w n -> gives addr f v.
Proof.
  intros addr f v t w n Th D. apply gives_out. intros I level kn.
  assert (X : data E is_zero InBody t w n /\ is_zero t w = false /\ typed_coll w /\ is_coll E t
    /\ no_elems len0 w = false
    /\ (match under E t with TSlice et | TMap _ et => complex_kind E et = true | _ => False end)
    /\ forall (w' : writer) s, typed_level E is_zero w' t w (S level) = Ok s -> solid s ->
       forall g, hcltag (ftag g) = Ok (hcl_name f) ->
       outliers w' g t w addr level = Ok [MO (hcl_name f) [] s true]).
  { destruct D as [t et l n U Ce Nl Z D|t kt et m n U Ce Nm Z D].
    - assert (El : elements E is_zero et l (match n with NList ns => ns | _ => [] end)).
      { inversion D as [ | | | | |p0 t0 v0 Np M Z'|p0 t0 et' l0 ns U' Z' El| ]; subst; [congruence|].
        destruct U' as [U'|U']; rewrite U in U'; [injection U' as <-; exact El|discriminate U']. }
      split; [exact D|]. split; [exact Z|]. split; [left; eauto|].
      split; [eexists; left; exact U|]. split; [destruct l; [congruence|reflexivity]|]. rewrite U.
      split; [destruct Ce as [(e & [Ue|(kt & Ue)])|(ms & Ue)]; unfold complex_kind; rewrite Ue; reflexivity|].
      intros w' s Ts So g Tg. unfold MarshalModel.outliers. rewrite Tg. cbn [bindr]. rewrite U, Z, Ts.
      destruct l as [|x l]; [congruence|]. cbn [no_elems]. inversion El as [|et0 x0 l0 n0 ns0 Dx El' E1 E2 E3]; subst.
      rewrite (data_no_loop _ _ _ _ Dx) by (destruct Ce; tauto). cbn [bindr]. rewrite blank_cons by exact So. reflexivity.
    - assert (Mm : exists ns, members E is_zero InFlat et m ns).
      { inversion D as [ | | | | |p0 t0 v0 Np M Z'| |p0 t0 kt' et' m0 ns U' Uk Ni Z' Nd Mm]; subst; [congruence|].
        rewrite U in U'. injection U' as <- <-. eauto. }
      destruct Mm as (ns & Mm). split; [exact D|]. split; [exact Z|]. split; [right; eauto|].
      split; [eexists; right; eexists; exact U|]. split; [destruct m; [congruence|reflexivity]|]. rewrite U.
      assert (Ci : match under E et with TSlice _ | TMap _ _ => True | _ => False end)
        by (destruct Ce as (e & [Ue|(kt' & Ue)]); rewrite Ue; exact Logic.I).
      split; [unfold complex_kind; destruct (under E et); try contradiction; reflexivity|].
      intros w' s Ts So g Tg. unfold MarshalModel.outliers. rewrite Tg. cbn [bindr]. rewrite U, Z, Ts.
      destruct m as [|[k x] m]; [congruence|]. cbn [no_elems]. inversion Mm as [|p0 et0 k0 x0 m0 n0 ns0 Gk Dx Mm' E1 E2 E3]; subst.
      rewrite (data_no_loop _ _ _ _ Dx) by (left; exact Ce). cbn [bindr].
      destruct (under E et); try contradiction; rewrite blank_cons by exact So; reflexivity. }
  destruct X as (D' & Z & C & Ct & Ne & Cx & O).
  assert (Np : InBody <> InList) by discriminate.
  destruct (proj2 (proj2 (proj1 (data_reads E is_zero) _ _ _ _ D')) Np Z C level) as (s & Es & (e & ts & He & Hs & Hg & Hv) & So).
  exists [IAttr (hcl_name f) e], [MO (hcl_name f) [] s true], 0. eexists.
  split; [exact (fp_data _ _ _ _ _ kn f v t w n e Th D Hg Hv)|].
  split; [rewrite (here_through _ _ _ _ _ Th); apply one_field_out; destruct (under E t); try contradiction; right; exact Cx|].
  split; [reflexivity|split; [reflexivity|split; [|split; [|split]]]].
  - intros depth fuel _ _ Tg. cbn [m_field m_type m_value m_addr] in *. apply O; [|exact So|exact Tg].
    unfold typed_level. rewrite Es. reflexivity.
  - constructor; [|constructor]. change (out_line _) with (hcl_name f +++ " = " +++ s).
    apply (attr_line _ _ _ ts); assumption.
  - intros i [<-|[]]. reflexivity.
  - cbn. lia.
Qed.

(* A value written as one block at the level below: what the call gives. *)
Lemma call_block : forall a u w level key, writes a u w -> exists ls b text d,
  represents a u w key ls b /\ block_reads text ls b /\
  forall depth fuel pt x, d <= depth -> d <= fuel -> dyn a u w pt x -> wr depth fuel pt x (S level) key = Ok text.
Proof.
  intros a u w level key H. destruct (H (S level) key) as (ls & b & arr & d & R & Q & F & N & W).
  exists ls, b, (final (S level) ls arr), d. split; [exact R|]. split; [apply final_reads; assumption|exact W].
Qed.

Lemma struct_ptr_none : forall t u, under E t = TPtr u -> is_struct E u -> coll_ptr E t = None.
Proof.
  intros t u U (fs & S0). apply coll_ptr_none. intros u0 U0 (et & [X|(kt & X)]); rewrite U in U0; injection U0 as <-;
    rewrite S0 in X; discriminate.
Qed.

Lemma case_block : forall (addr : bool) f v a u w, holds E addr (ftype f) v a u w ->
  is_zero (ftype f) v = false \/ (is_struct E (ftype f) /\ addr = true) -> ~ hollow E is_zero (ftype f) v ->
  writes a u w -> gives addr f v.
Proof.
  intros addr f v a u w H Z Nh W. apply gives_out. intros I level kn.
  destruct (call_block _ _ _ level [] W) as (ls & b & text & d & R & B & C).
  exists [IBlock (hcl_name f) ls b], [MO (hcl_name f) [] text false], d,
    (MF (if String.eqb (tag_of f) "" then retag f "block" else f) (ftype f) v true addr).
  split; [exact (fp_block _ _ _ _ addr kn f v a u w ls b H Z Nh R)|]. split; [|split; [|split; [|]]].
  - unfold here. inversion H as [a0 t0 v0 S0|a0 t0 u0 v0 U S0|a0 t0 u0 v0 U S0|a0 t0 u0 v0 U S0]; subst.
    + destruct S0 as (fs & U). unfold coll_ptr. rewrite U. apply one_field_out. rewrite U. exact Logic.I.
    + rewrite (struct_ptr_none _ _ U S0). apply one_field_out. rewrite U. exact Logic.I.
    + destruct U as (ms & U). unfold coll_ptr. rewrite U. apply one_field_out. rewrite U. exact Logic.I.
    + destruct U as (ms & U). unfold coll_ptr. rewrite U. apply one_field_out. rewrite U. exact Logic.I.
  - reflexivity.
  - reflexivity.
  - split; [|split; [|split]].
    + intros depth fuel D1 D2 Tg. cbn [m_field m_type m_value m_addr] in *. unfold MarshalModel.outliers. rewrite Tg. cbn [bindr].
      assert (X : unless_blank (hcl_name f) [] false text = [MO (hcl_name f) [] text false]) by (apply blank_cons; apply B).
      inversion H as [a0 t0 v0 S0|a0 t0 u0 v0 U S0|a0 t0 u0 v0 U S0|a0 t0 u0 v0 U S0]; subst.
      * destruct S0 as (fs & U). rewrite U. destruct a.
        -- rewrite (C depth fuel); [cbn [bindr]; rewrite X; reflexivity|exact D1|exact D2|]. split; [reflexivity|eauto].
        -- destruct Z as [Z|[_ Z]]; [|discriminate]. rewrite typed_written; [|exact Z|left; eexists; exact U].
           rewrite (C depth fuel); [cbn [bindr]; rewrite X; reflexivity|exact D1|exact D2|]. split; reflexivity.
      * rewrite U. rewrite typed_written; [|apply pointer_not_nil|right; eexists; exact U].
        rewrite (C depth fuel); [cbn [bindr]; rewrite X; reflexivity|exact D1|exact D2|]. split; [exact U|eauto].
      * destruct U as (ms & U). rewrite U. rewrite typed_iface_ptr; [|apply pointer_not_nil|eexists; exact U].
        rewrite (C depth fuel); [cbn [bindr]; rewrite X; reflexivity|exact D1|exact D2|]. split; [reflexivity|eauto].
      * destruct U as (ms & U). rewrite U.
        destruct Z as [Z|[(gs & Z) _]]; [|congruence]. rewrite typed_dyn; [|exact Z|eexists; exact U].
        destruct (is_zero u w) eqn:Zw; [exfalso; apply Nh; split; [eexists; exact U|eauto]|].
        rewrite typed_written; [|exact Zw|left; exact S0].
        rewrite (C depth fuel); [cbn [bindr]; rewrite X; reflexivity|exact D1|exact D2|]. split; reflexivity.
    + constructor; [|constructor]. apply (block_line _ [] ls _ b); [exact I|constructor|exact B].
    + intros i [<-|[]]. reflexivity.
    + cbn. lia.
Qed.

(* One element of a slice or entry of a map. *)
Lemma elem_call : forall et x a u w depth fuel level text, holds E false et x a u w -> is_zero et x = false ->
  ~ hollow E is_zero et x ->
  (forall pt y, dyn a u w pt y -> wr depth fuel pt y level [] = Ok text) ->
  typed_level E is_zero (wr depth fuel) et x level = Ok text.
Proof.
  intros et x a u w depth fuel level text H Z Nh C. inversion H as [a0 t0 v0 S0|a0 t0 u0 v0 U S0|a0 t0 u0 v0 U S0|a0 t0 u0 v0 U S0]; subst.
  - rewrite typed_written; [|exact Z|left; exact S0]. apply C. split; reflexivity.
  - rewrite typed_written; [|exact Z|right; eexists; exact U]. apply C. split; [exact U|eauto].
  - rewrite typed_iface_ptr; [|exact Z|exact U]. apply C. split; [reflexivity|eauto].
  - rewrite typed_dyn; [|exact Z|exact U].
    destruct (is_zero u w) eqn:Zw; [exfalso; apply Nh; split; [exact U|eauto]|].
    rewrite typed_written; [|exact Zw|left; exact S0]. apply C. split; reflexivity.
Qed.
Lemma direct_call : forall et x a u w depth fuel level key text, holds E false et x a u w ->
  (is_interface E et -> is_zero et x = false) ->
  (forall pt y, dyn a u w pt y -> wr depth fuel pt y level key = Ok text) ->
  elem_direct E is_zero (wr depth fuel) et x level key = Ok text.
Proof.
  intros et x a u w depth fuel level key text H Z C. unfold elem_direct. inversion H as [a0 t0 v0 S0|a0 t0 u0 v0 U S0|a0 t0 u0 v0 U S0|a0 t0 u0 v0 U S0]; subst.
  - destruct S0 as (fs & U). rewrite U. apply C. split; reflexivity.
  - rewrite U. apply C. split; [exact U|eauto].
  - destruct U as (ms & U). rewrite U, pointer_not_nil. apply C. split; [reflexivity|eauto].
  - rewrite (Z U). destruct U as (ms & U). rewrite U. apply C. split; reflexivity.
Qed.

Lemma zero_elem : forall et x depth fuel level, is_zero et x = true ->
  typed_level E is_zero (wr depth fuel) et x level = Ok "".
Proof. intros et x depth fuel level Z. apply typed_zero. exact Z. Qed.

Lemma hollow_elem : forall et x depth fuel level, hollow E is_zero et x ->
  typed_level E is_zero (wr depth fuel) et x level = Ok "".
Proof.
  intros et x depth fuel level (U & u & w & -> & Z).
  destruct (is_zero et (HDyn u w)) eqn:Ze; [apply typed_zero; exact Ze|].
  rewrite typed_dyn; [|exact Ze|exact U]. apply typed_zero. exact Z.
Qed.
Lemma hollow_dec : forall et x, hollow E is_zero et x \/ ~ hollow E is_zero et x.
Proof.
  intros et x. destruct x as [s|s|n|o|t v|u w|l|m|m]; try (right; intros (_ & u & w & X & _); discriminate).
  destruct (is_zero u w) eqn:Z; [|right; intros (_ & u' & w' & X & Z'); congruence].
  destruct (under E et) eqn:U; try (right; intros ((ms & Y) & _); congruence).
  left. split; [eexists; exact U|eauto].
Qed.

Lemma blocks_names : forall name its, (forall i, In i its -> exists ls b, i = IBlock name ls b) ->
  (forall i, In i its -> item_name i = name) /\ attr_names its = [].
Proof.
  intros name its H. split.
  - intros i I. destruct (H i I) as (ls & b & ->). reflexivity.
  - induction its as [|i its IH]; [reflexivity|]. destruct (H i (or_introl eq_refl)) as (ls & b & ->). cbn.
    apply IH. intros j J. apply H. right. exact J.
Qed.

Lemma case_blocks : forall addr f v t et l, through E (ftype f) v t (HSlice l) -> under E t = TSlice et ->
  is_zero t (HSlice l) = false -> l <> [] ->
  (is_interface E et -> forall x, In x l -> is_zero et x = false) -> ~ simple E et -> ~ is_coll E et ->
  (forall x, In x l -> is_zero et x = false -> exists a u w, holds E false et x a u w) ->
  (forall x a u w, In x l -> is_zero et x = false -> ~ hollow E is_zero et x -> holds E false et x a u w -> writes a u w) ->
  gives addr f v.
Proof.
  intros addr f v t et l Th U Z Nl Hi Ns Nc Hh Hw. apply gives_out. intros I level kn.
  assert (G : exists its os d, elem_blocks E is_zero to_cty len0 (hcl_name f) et l its /\
    (forall depth fuel, d <= depth -> d <= fuel -> slice_outs E is_zero (wr depth fuel) (hcl_name f) et level l = Ok os) /\
    Forall2 (fun o i => line_ok (out_line o) i) os its /\ (forall i, In i its -> exists ls b, i = IBlock (hcl_name f) ls b)).
  { clear Th Z Nl Hi. induction l as [|x l IH].
    - exists [], [], 0. split; [constructor|]. split; [reflexivity|]. split; [constructor|intros i []].
    - destruct IH as (its & os & d & R & Eo & F & Nm).
      { intros y Iy. apply Hh. right. exact Iy. }
      { intros y a u w Iy. apply Hw. right. exact Iy. }
      destruct (is_zero et x) eqn:Zx.
      + exists its, os, d. split; [apply eb_zero; assumption|]. split; [|split; assumption].
        intros depth fuel D1 D2. cbn [slice_outs]. rewrite zero_elem by exact Zx. cbn [bindr].
        rewrite Eo by assumption. reflexivity.
      + destruct (hollow_dec et x) as [Hv|Nv].
        { exists its, os, d. split; [apply eb_hollow; assumption|]. split; [|split; assumption].
          intros depth fuel D1 D2. cbn [slice_outs]. rewrite hollow_elem by exact Hv. cbn [bindr].
          rewrite Eo by assumption. reflexivity. }
        destruct (Hh x (or_introl eq_refl) Zx) as (a & u & w & Hx).
        destruct (call_block a u w level [] (Hw x a u w (or_introl eq_refl) Zx Nv Hx)) as (ls & b & text & d' & Rb & Bt & C).
        exists (IBlock (hcl_name f) ls b :: its), (MO (hcl_name f) [] text false :: os), (d + d').
        split; [exact (eb_cons _ _ _ _ _ _ _ _ _ _ _ _ _ _ Zx Nv Hx Rb R)|]. split; [|split].
        * intros depth fuel D1 D2. cbn [slice_outs].
          rewrite (elem_call et x a u w depth fuel (S level) text Hx Zx Nv) by (intros pt y; apply C; lia).
          cbn [bindr]. rewrite Eo by lia. cbn [bindr]. rewrite blank_cons by apply Bt. reflexivity.
        * constructor; [|exact F]. apply (block_line _ [] ls _ b); [exact I|constructor|exact Bt].
        * intros i [<-|J]; [eauto|exact (Nm i J)]. }
  destruct G as (its & os & d & R & Eo & F & Nm). destruct (blocks_names _ _ Nm) as [Nm1 Nm2].
  exists its, os, d. eexists. split; [exact (fp_blocks _ _ _ _ _ kn f v t et l its Th U Ns Nc Nl Z R)|].
  assert (K : match under E et with TPtr _ | TStruct _ | TIface _ => True | _ => False end).
  { destruct (under E et) eqn:X; try exact Logic.I.
    - eapply under_not_named; exact X.
    - apply Nc. eexists. left. exact X.
    - apply Ns. exists (TArray g). rewrite X. auto.
    - apply Nc. eexists. right. eexists. exact X.
    - apply Ns. eexists. rewrite X. split; [reflexivity|exact Logic.I]. }
  split.
  { rewrite (here_through _ _ _ _ _ Th). apply one_field_out. rewrite U. right. unfold complex_kind.
    destruct (under E et); contradiction || reflexivity. }
  split; [reflexivity|split; [reflexivity|split; [|split; [exact F|split; [exact Nm1|rewrite Nm2; cbn; lia]]]]].
  intros depth fuel D1 D2 Tg. cbn [m_field m_type m_value m_addr] in *. unfold MarshalModel.outliers. rewrite Tg. cbn [bindr].
  rewrite U, Z. destruct l as [|x l]; [congruence|]. cbn [no_elems].
  assert (Lp : is_loop E is_zero et x = true).
  { unfold is_loop. destruct (under E et) eqn:X; try contradiction; try reflexivity.
    assert (Zx : is_zero et x = false) by (apply Hi; [eexists; exact X|left; reflexivity]).
    destruct (Hh x (or_introl eq_refl) Zx) as (a & u & w & Hx).
    inversion Hx as [a0 t0 v0 (fs & S0)|a0 t0 u0 v0 S0|a0 t0 u0 v0 S0|a0 t0 u0 v0 S0 (fs & S1)]; subst; try congruence; rewrite Zx;
      [reflexivity|rewrite S1; reflexivity]. }
  rewrite Lp. apply Eo; assumption.
Qed.

Lemma key_labels_eq : forall ab, key_labels ab = labels_of_key ab.
Proof.
  intros [a b]. unfold key_labels, labels_of_key. apply filter_ext. intros s.
  destruct (string_dec s "") as [->|N]; [reflexivity|]. apply String.eqb_neq in N. rewrite N. reflexivity.
Qed.

Lemma case_entries : forall addr f v t kt et w m, through E (ftype f) v t w -> under E t = TMap kt et -> entries_of w m ->
  is_zero t w = false -> m <> [] ->
  (forall ls x, In (ls, x) m -> Forall quotable ls /\ (is_interface E et -> is_zero et x = false) /\ exists a u w, holds E false et x a u w) ->
  (forall ls x a u w, In (ls, x) m -> holds E false et x a u w -> writes a u w) -> gives addr f v.
Proof.
  intros addr f v t kt et w m Th U En Z Nm Hh Hw. apply gives_out. intros I level kn.
  assert (G : exists its os d, entry_blocks E is_zero to_cty len0 (hcl_name f) et m its /\
    (forall depth fuel, d <= depth -> d <= fuel -> map_outs E is_zero (wr depth fuel) (hcl_name f) et level m = Ok os) /\
    Forall2 (fun o i => line_ok (out_line o) i) os its /\ (forall i, In i its -> exists ls b, i = IBlock (hcl_name f) ls b)).
  { clear En Nm. induction m as [|[key x] m IH].
    - exists [], [], 0. split; [constructor|]. split; [reflexivity|]. split; [constructor|intros i []].
    - destruct IH as (its & os & d & R & Eo & F & Nb).
      { intros ls y Iy. apply Hh. right. exact Iy. }
      { intros ls y a u w' Iy. apply (Hw ls). right. exact Iy. }
      destruct (Hh key x (or_introl eq_refl)) as (Q & Zi & a & u & w' & Hx).
      destruct (call_block a u w' level key (Hw key x a u w' (or_introl eq_refl) Hx)) as (ls & b & text & d' & Rb & Bt & C).
      exists (IBlock (hcl_name f) (key ++ ls) b :: its), (MO (hcl_name f) key text false :: os), (d + d').
      split; [exact (nb_cons _ _ _ _ _ _ _ _ _ _ _ _ _ _ _ Hx Rb R)|]. split; [|split].
      + intros depth fuel D1 D2. cbn [map_outs].
        rewrite (direct_call et x a u w' depth fuel (S level) key text Hx Zi) by (intros pt y; apply C; lia).
        cbn [bindr]. rewrite Eo by lia. cbn [bindr]. rewrite blank_cons by apply Bt. reflexivity.
      + constructor; [|exact F]. apply block_line; [exact I|exact Q|exact Bt].
      + intros i [<-|J]; [eauto|exact (Nb i J)]. }
  destruct G as (its & os & d & R & Eo & F & Nb). destruct (blocks_names _ _ Nb) as [Nm1 Nm2].
  exists its, os, d. eexists. split; [exact (fp_entries _ _ _ _ _ kn f v t kt et w m its Th U En Nm Z R)|].
  assert (K : complex_kind E et = true /\ forall ls x, In (ls, x) m -> is_loop E is_zero et x = true).
  { assert (Hk : forall ls x, In (ls, x) m -> complex_kind E et = true /\ is_loop E is_zero et x = true).
    { intros ls x Ix. destruct (Hh ls x Ix) as (_ & Zi & a & u & w' & Hx). unfold complex_kind, is_loop.
      inversion Hx as [a0 t0 v0 (fs & S0)|a0 t0 u0 v0 S0|a0 t0 u0 v0 (ms & S0)|a0 t0 u0 v0 (ms & S0) (fs & S1)]; subst; rewrite S0;
        [split; reflexivity|split; reflexivity|rewrite pointer_not_nil; split; reflexivity
        |rewrite (Zi (ex_intro _ ms S0)), S1; split; reflexivity]. }
    split; [|intros ls x Ix; exact (proj2 (Hk ls x Ix))].
    destruct m as [|[ls x] m]; [congruence|]. exact (proj1 (Hk ls x (or_introl eq_refl))). }
  destruct K as [K1 K2].
  split; [rewrite (here_through _ _ _ _ _ Th); apply one_field_out; rewrite U; right; exact K1|].
  split; [reflexivity|split; [reflexivity|split; [|split; [exact F|split; [exact Nm1|rewrite Nm2; cbn; lia]]]]].
  intros depth fuel D1 D2 Tg. cbn [m_field m_type m_value m_addr] in *. unfold MarshalModel.outliers. rewrite Tg. cbn [bindr].
  rewrite U, Z. destruct En as [n|n].
  - destruct n as [|[k x] n]; [exfalso; apply Nm; reflexivity|]. cbn [no_elems].
    rewrite (K2 [k] x) by (left; reflexivity). apply Eo; assumption.
  - destruct n as [|[k x] n]; [exfalso; apply Nm; reflexivity|]. cbn [no_elems].
    rewrite (K2 (labels_of_key k) x) by (left; reflexivity).
    rewrite (map_ext _ (fun kv : (string * string) * hval => (labels_of_key (fst kv), snd kv)))
      by (intros kv; rewrite key_labels_eq; reflexivity).
    apply Eo; assumption.
Qed.

(* ----- structs ----- *)

Definition named_part (f : gfield) (p : part) : Prop :=
  (forall i, In i (pt_attrs p ++ pt_outs p) -> item_name i = hcl_name f) /\
  List.length (pt_attrs p) + List.length (attr_names (pt_outs p)) <= 1.

Lemma attr_names_app : forall a b, attr_names (a ++ b) = (attr_names a ++ attr_names b)%list.
Proof. intros a b. apply flat_map_app. Qed.
Lemma attr_names_item : forall k its, In k (attr_names its) -> exists i, In i its /\ item_name i = k.
Proof.
  intros k its H. unfold attr_names in H. apply in_flat_map in H. destruct H as (i & I & H). exists i. split; [exact I|].
  destruct i; [|destruct H]. destruct H as [<-|[]]. reflexivity.
Qed.
Lemma attr_names_len : forall its, List.length (attr_names its) <= List.length its.
Proof.
  induction its as [|i its IH]; [cbn; lia|]. change (i :: its) with ([i] ++ its)%list.
  rewrite attr_names_app, !app_length. destruct i; cbn [attr_names flat_map List.length app]; fold (attr_names its); lia.
Qed.
Lemma short_nodup : forall A (l : list A), List.length l <= 1 -> NoDup l.
Proof. intros A [|a [|b l]] H; cbn in H; [constructor|repeat constructor; intros []|lia]. Qed.

Lemma parts_names : forall (l : list (gfield * list string)) ps, Forall2 (fun fp p => named_part (fst fp) p) l ps ->
  forall i, In i (flat_map pt_attrs ps ++ flat_map pt_outs ps) -> In (item_name i) (map (fun fp => hcl_name (fst fp)) l).
Proof.
  intros l ps F. induction F as [|fp p l ps [H _] F IH]; intros i I; [destruct I|]. cbn [flat_map map] in *.
  rewrite in_app_iff in I. rewrite !in_app_iff in I.
  destruct I as [[I|I]|[I|I]].
  - left. symmetry. apply H. apply in_or_app. left. exact I.
  - right. apply IH. apply in_or_app. left. exact I.
  - left. symmetry. apply H. apply in_or_app. right. exact I.
  - right. apply IH. apply in_or_app. right. exact I.
Qed.

Lemma parts_nodup : forall (l : list (gfield * list string)) ps, Forall2 (fun fp p => named_part (fst fp) p) l ps ->
  NoDup (map (fun fp => hcl_name (fst fp)) l) ->
  NoDup (attr_names (flat_map pt_attrs ps ++ flat_map pt_outs ps)) /\ NoDup (map item_name (flat_map pt_attrs ps)).
Proof.
  intros l ps F. induction F as [|fp p l ps Hp F IH]; intros N; [split; constructor|].
  cbn [map] in N. inversion N as [|? ? N1 N2]; subst. destruct (IH N2) as [I1 I2]. destruct Hp as [H1 H2].
  assert (Out := parts_names l ps F). split.
  - cbn [flat_map].
    apply (Permutation_NoDup (l := attr_names (pt_attrs p ++ pt_outs p)
                               ++ attr_names (flat_map pt_attrs ps ++ flat_map pt_outs ps))).
    { rewrite !attr_names_app, <- !app_assoc. apply Permutation_app_head. rewrite !app_assoc. apply Permutation_app_tail.
      apply Permutation_app_comm. }
    apply NoDup_app_intro.
    + apply short_nodup. rewrite attr_names_app, app_length. assert (X := attr_names_len (pt_attrs p)). lia.
    + exact I1.
    + intros k K1 K2. apply attr_names_item in K1, K2. destruct K1 as (i & Ii & <-). destruct K2 as (j & Ij & Ej).
      apply N1. rewrite <- (H1 i Ii), <- Ej. apply Out. exact Ij.
  - cbn [flat_map]. rewrite map_app. apply NoDup_app_intro.
    + apply short_nodup. rewrite map_length. lia.
    + exact I2.
    + intros k K1 K2. apply in_map_iff in K1, K2. destruct K1 as (i & <- & Ii). destruct K2 as (j & Ej & Ij).
      apply N1. rewrite <- (H1 i), <- Ej; [|apply in_or_app; left; exact Ii]. apply Out. apply in_or_app. left. exact Ij.
Qed.

Lemma plain_names : forall addr (l : list (gfield * list string)) (o : list string -> hval),
  NoDup (map (fun fp => fname (fst fp)) l) ->
  NoDup (map fname (plain_fields (flat_map (fun fp => here (addr || behind_pointer (snd fp)) (fst fp) (o (snd fp))) l))).
Proof.
  assert (Sub : forall addr (l : list (gfield * list string)) (o : list string -> hval) n,
    In n (map fname (plain_fields (flat_map (fun fp => here (addr || behind_pointer (snd fp)) (fst fp) (o (snd fp))) l))) ->
    In n (map (fun fp => fname (fst fp)) l)).
  { intros addr l o n H. apply in_map_iff in H. destruct H as (g & <- & H). unfold plain_fields in H.
    apply in_map_iff in H. destruct H as (mf & <- & H). apply filter_In in H. destruct H as [H _].
    apply in_flat_map in H. destruct H as (fp & I & H). rewrite (here_name _ _ _ _ H).
    apply (in_map (fun fp => fname (fst fp))) in I. exact I. }
  intros addr l o. induction l as [|fp l IH]; intros N; [constructor|]. cbn [map] in N. inversion N as [|? ? N1 N2]; subst.
  cbn [flat_map]. unfold plain_fields. rewrite filter_app, !map_app. apply NoDup_app_intro.
  - apply short_nodup. rewrite !map_length. assert (X := here_len (addr || behind_pointer (snd fp)) (fst fp) (o (snd fp))).
    destruct (here (addr || behind_pointer (snd fp)) (fst fp) (o (snd fp))) as [|a [|b r]]; cbn in *; [lia|destruct (negb (m_out a)); cbn; lia|lia].
  - exact (IH N2).
  - intros n K1 K2. apply (Sub addr l o) in K2. apply in_map_iff in K1. destruct K1 as (g & <- & K1).
    apply in_map_iff in K1. destruct K1 as (mf & <- & K1). apply filter_In in K1. destruct K1 as [K1 _].
    rewrite (here_name _ _ _ _ K1) in K2. contradiction.
Qed.

Lemma leaves_tagged : forall p fs l, leaves E p fs l -> forall f q, In (f, q) l -> exists n k, tag2 (ftag f) = Ok (n, k).
Proof.
  intros p fs l L. induction L; intros f0 q Hin; try exact (IHL _ _ Hin); [destruct Hin| | |].
  1, 2: apply in_app_or in Hin; destruct Hin as [Hin|Hin]; [exact (IHL1 _ _ Hin)|exact (IHL2 _ _ Hin)].
  - destruct Hin as [[= <- <-]|Hin]; [eauto|exact (IHL _ _ Hin)].
Qed.

Lemma gather_fields : forall addr v level kn l,
  (forall f p, In (f, p) l -> ident (hcl_name f)) ->
  (forall f p, In (f, p) l -> exists n k, tag2 (ftag f) = Ok (n, k)) ->
  (forall f p, In (f, p) l -> gives (addr || behind_pointer p) f (hget v p)) ->
  exists ps afs os d,
    Forall2 (fun fp p => field_part (addr || behind_pointer (snd fp)) kn (fst fp) (hget v (snd fp)) p) l ps /\
    (forall depth fuel, d <= depth -> d <= fuel ->
      split_fields (wr depth fuel) level kn (flat_map (fun fp => here (addr || behind_pointer (snd fp)) (fst fp) (hget v (snd fp))) l) =
        Ok (MP (flat_map pt_labels ps) afs os)) /\
    Forall2 (attr_ok level) afs (flat_map pt_attrs ps) /\
    Forall2 (fun o i => line_ok (out_line o) i) os (flat_map pt_outs ps) /\
    Forall quotable (flat_map pt_labels ps) /\
    Forall2 (fun fp p => named_part (fst fp) p) l ps.
Proof.
  intros addr v level kn l. induction l as [|[f q] l IH]; intros Hi Ht Hg.
  - exists [], [], [], 0. repeat split; constructor.
  - destruct IH as (ps & afs & os & d & F1 & Es & F2 & F3 & F4 & F5).
    { intros g r I. apply (Hi g r). right. exact I. }
    { intros g r I. apply (Ht g r). right. exact I. }
    { intros g r I. apply (Hg g r). right. exact I. }
    destruct (Hg f q (or_introl eq_refl) (Hi f q (or_introl eq_refl)) (Ht f q (or_introl eq_refl)) level kn)
      as (p & afs' & os' & d' & P & _ & _ & Sp & A1 & A2 & A3 & A4 & A5).
    exists (p :: ps), (afs' ++ afs)%list, (os' ++ os)%list, (d + d').
    split; [constructor; [exact P|exact F1]|]. split.
    { intros depth fuel D1 D2. cbn [flat_map fst snd]. rewrite (Sp depth fuel) with (q := MP (flat_map pt_labels ps) afs os).
      - reflexivity.
      - lia.
      - lia.
      - apply Es; lia. }
    split; [apply Forall2_app; assumption|]. split; [apply Forall2_app; assumption|].
    split; [apply Forall_app; split; assumption|]. constructor; [|exact F5]. split; assumption.
Qed.

Lemma assemble_final : forall level labels s outs ls,
  replace_nl (lead (S level)) s = fold_right (fun l r => l +++ nl +++ lead (S level) +++ r) "" ls ->
  Forall solid (ls ++ map out_line outs) ->
  assemble_text level labels s outs = final level labels (ls ++ map out_line outs).
Proof.
  intros level labels s outs ls H F. unfold assemble_text, final. rewrite H, trim_body by exact F. reflexivity.
Qed.

Lemma case_struct : forall (addr : bool) t v fs l, under E t = TStruct fs -> leaves E [] fs l ->
  (if addr then forall pt, under E pt = TPtr t -> ~ method pt else ~ method t) ->
  NoDup (map (fun fp => fname (fst fp)) l) -> NoDup (map (fun fp => hcl_name (fst fp)) l) ->
  (forall f p, In (f, p) l -> ident (hcl_name f)) ->
  (forall pt q, embedded_ptr E [] fs pt q -> is_zero pt (hget v q) = false) ->
  (forall f p, In (f, p) l -> gives (addr || behind_pointer p) f (hget v p)) -> writes addr t v.
Proof.
  intros addr t v fs l U L M N1 N2 Hi Hz Hg level kn.
  destruct (gather_fields addr v level kn l Hi (leaves_tagged _ _ _ L) Hg)
    as (ps & afs & os & d & F1 & Es & F2 & F3 & F4 & F5).
  destruct (parts_nodup l ps F5 N2) as [Na Ni].
  destruct (attr_lines_ok level afs (flat_map pt_attrs ps) F2 Ni) as (s & ls & El & Fl & Er).
  destruct (get_fields_leaves [] fs l L) as (d' & G).
  assert (FL : Forall2 line_ok (ls ++ map out_line os) (flat_map pt_attrs ps ++ flat_map pt_outs ps)).
  { apply Forall2_app; [exact Fl|]. clear -F3. induction F3; constructor; assumption. }
  exists (flat_map pt_labels ps), (flat_map pt_attrs ps ++ flat_map pt_outs ps)%list, (ls ++ map out_line os)%list,
    (S (d + d')).
  split; [exact (rep _ _ _ _ _ _ _ kn fs l ps U L F1)|]. split; [exact F4|]. split; [exact FL|]. split; [exact Na|].
  intros depth [|fuel] pt x D1 D2 Dy; [lia|].
  assert (Mh : mhook pt = None).
  { assert (X : ~ method pt).
    { unfold dyn in Dy. destruct addr; [apply M; apply Dy|]. destruct Dy as [-> _]. exact M. }
    unfold method in X. destruct (mhook pt); [exfalso; apply X; discriminate|reflexivity]. }
  assert (Body : (do mfs <- get_fields depth addr (hget v) [] fs;
                  if has_dup (map fname (plain_fields mfs)) then Panic "reflect.StructOf: duplicate field"
                  else
                    do p <- split_fields (wr depth fuel) level kn mfs;
                    do attrs <- attr_lines (p_attrs p);
                    Ok (assemble_text level (p_ls p) attrs (p_outs p)))
                 = Ok (final level (flat_map pt_labels ps) (ls ++ map out_line os))).
  { assert (G' := G depth addr (hget v) ltac:(lia) Hz). cbn [behind_pointer existsb] in G'. rewrite orb_false_r in G'. rewrite G'. cbn [bindr].
    rewrite (proj2 (has_dup_false _) (plain_names addr l (hget v) N1)).
    rewrite Es by lia. cbn [bindr p_ls p_attrs p_outs]. rewrite El. cbn [bindr].
    rewrite (assemble_final level _ s os ls Er); [reflexivity|].
    apply (Forall2_Forall_l _ _ line_ok solid _ _ (fun a b X => proj1 X) FL). }
  cbn [marshal_struct]. rewrite Mh. unfold dyn in Dy. destruct addr.
  - destruct Dy as [Up (u0 & ->)]. rewrite Up. cbn [unpoint]. rewrite U, pointer_not_nil. cbn [andb]. exact Body.
  - destruct Dy as [-> ->]. rewrite !U. cbn [andb]. exact Body.
Qed.

(* ----- all values ----- *)

Theorem marshal_writes : (forall addr t v, can_write addr t v -> writes addr t v) /\
  (forall addr f v, can_field addr f v -> gives addr f v).
Proof.
  apply can_mut.
  - intros addr t v fs l U L M N1 N2 Hi Hz _ IH. exact (case_struct addr t v fs l U L M N1 N2 Hi Hz IH).
  - exact case_absent.
  - exact case_hollow.
  - exact case_absent_coll.
  - exact case_label.
  - exact case_attr.
  - exact case_number.
  - exact case_empty.
  - exact case_list.
  - exact case_map.
  - exact case_data.
  - intros addr f v a u w H Z Nh _ W. exact (case_block addr f v a u w H Z Nh W).
  - intros addr f v t et l Th U Z Nl Hi Ns Nc Hh _ W. exact (case_blocks addr f v t et l Th U Z Nl Hi Ns Nc Hh W).
  - intros addr f v t kt et w m Th U En Z Nm Hh _ W. exact (case_entries addr f v t kt et w m Th U En Z Nm Hh W).
Qed.

Theorem marshal_parses : forall addr t v pt x, can_write addr t v -> dyn addr t v pt x -> is_zero pt x = false ->
  exists text labels its d, represents addr t v [] labels its /\ (parse_config text = Ok its /\ exists ts, PlainScan.scan LNone text = Ok ts) /\
    forall depth fuel, d <= depth -> d <= fuel ->
      marshal_value align E depth is_zero to_cty fmt_v len0 mhook fuel pt x = Ok text.
Proof.
  intros addr t v pt x C Dy Z. assert (W := proj1 marshal_writes addr t v C).
  destruct (W 0 []) as (labels & its & arr & d & R & Q & F & N & M).
  exists (body_of 0 arr), labels, its, d. split; [exact R|]. split; [apply document_parses; assumption|].
  intros depth fuel D1 D2. unfold marshal_value.
  rewrite typed_written; [apply M; assumption|exact Z|].
  unfold dyn in Dy. destruct addr; destruct Dy as [U' _]; [right; eexists; exact U'|subst pt].
  inversion C as [? ? ? fs l U]; subst. left. eexists. exact U.
Qed.
End Marshal.
