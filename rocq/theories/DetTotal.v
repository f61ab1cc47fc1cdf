(* What can be decoded is decoded, given enough call depth. *)

From Verif Require Import Base GoType SpecModel CollectModel CollectSpec CollectProofs DetModel DetSpec DetProofs DetSound DetTotalSpec.
From Coq Require Import Lia Permutation.

(* ----- bounds ----- *)

Lemma bound : forall A (P : nat -> A -> Prop) (l : list A),
  (forall x, In x l -> exists d, forall n, d <= n -> P n x) ->
  exists d, forall n, d <= n -> forall x, In x l -> P n x.
Proof.
  intros A P l; induction l as [|a l IH]; intros H; [exists 0; intros n _ x []|].
  destruct (H a) as [d1 H1]; [left; reflexivity|]. destruct IH as [d2 H2]; [intros; apply H; right; assumption|].
  exists (max d1 d2). intros n Hn x [<-|Hx]; [apply H1; lia|apply H2; [lia|exact Hx]].
Qed.

Section Total.
Variable E : env.

(* ----- the fields ----- *)

Lemma flat_loop : forall fs l, flat E fs l -> exists d, forall n, d <= n -> forall om prefix,
  loop_fields E n om prefix fs = Some (map (fun pf => NF (snd pf) (prefix ++ fst pf) (kind_of E om (snd pf))) l).
Proof.
  intros fs l H; induction H as [|f fs l Hh H IH|f gs fs l1 l2 He H1 IH1 H2 IH2|f fs l Hh Hne H IH].
  - exists 1. intros [|n] Hn om prefix; [lia|reflexivity].
  - destruct IH as [d IH]. exists (S d). intros [|n] Hn om prefix; [lia|]. specialize (IH (S n) ltac:(lia) om prefix).
    cbn [loop_fields] in *. rewrite hidden_iff in Hh. destruct Hh as [Hh|Hh].
    + rewrite Hh. cbn [negb]. exact IH.
    + rewrite Hh. destruct (negb (is_exported (fname f))); exact IH.
  - destruct IH1 as [d1 IH1]. destruct IH2 as [d2 IH2]. exists (S (max d1 d2)). intros [|n] Hn om prefix; [lia|].
    specialize (IH1 n ltac:(lia) om (prefix ++ [fname f])). specialize (IH2 (S n) ltac:(lia) om prefix). cbn [loop_fields] in *.
    destruct He as (Hh & Ht & Ha & Hu). rewrite hidden_iff in Hh.
    destruct (is_exported (fname f)); [|exfalso; apply Hh; left; reflexivity].
    destruct (tag_skipped (ftag f)); [exfalso; apply Hh; right; reflexivity|]. cbn [negb].
    rewrite Hu, Ha, Ht. cbn [String.eqb andb]. rewrite IH1, IH2. f_equal. rewrite map_app, map_map. f_equal.
    apply map_ext. intros [p g]. cbn [fst snd]. rewrite <- app_assoc. reflexivity.
  - destruct IH as [d IH]. exists (S d). intros [|n] Hn om prefix; [lia|]. specialize (IH (S n) ltac:(lia) om prefix).
    cbn [loop_fields] in *. pose proof Hh as Hh'. rewrite hidden_iff in Hh.
    destruct (is_exported (fname f)); [|exfalso; apply Hh; left; reflexivity].
    destruct (tag_skipped (ftag f)); [exfalso; apply Hh; right; reflexivity|]. cbn [negb]. rewrite IH.
    destruct (under E (ftype f)) as [k|u|u|u|k u|gs|m|b] eqn:Hu; try reflexivity.
    destruct (String.eqb (ftag f) "" && fanon f) eqn:He; [|reflexivity]. exfalso.
    apply andb_true_iff in He as [He1 He2]. apply String.eqb_eq in He1. apply (Hne gs). unfold embedded. auto.
Qed.

Definition good_level (lv : list (list string * list gfield)) : Prop :=
  NoDup (map fst lv) /\ forall p gs, In (p, gs) lv -> proper E gs.

Lemma nodup_app : forall A (l l' : list A), NoDup l -> NoDup l' -> (forall x, In x l -> In x l' -> False) -> NoDup (l ++ l').
Proof.
  intros A l l' H; induction H as [|x l Hx H IH]; intros H' D; [exact H'|]. simpl. constructor.
  - rewrite in_app_iff. intros [Hi|Hi]; [contradiction|]. apply (D x); [left; reflexivity|exact Hi].
  - apply IH; [exact H'|]. intros y Hy. apply D. right; exact Hy.
Qed.

(* One struct's contribution to a level: paths are extended by different names. *)
Lemma extend_nodup : forall B (lv : list (list string * list gfield)),
  NoDup (map fst lv) -> (forall p gs, In (p, gs) lv -> NoDup (map fname gs)) ->
  forall h, (forall p f, map fst (h p f) = [] \/ map fst (h p f) = [p ++ [fname f]]) ->
  NoDup (map fst (flat_map (fun pf => flat_map (fun f => h (fst pf) f) (snd pf)) lv : list (list string * B))).
Proof.
  intros B lv; induction lv as [|[p gs] lv IH]; intros Hn Hg h Hh; [constructor|]. cbn [flat_map fst snd].
  rewrite map_app. inversion Hn; subst. apply nodup_app.
  - specialize (Hg p gs (or_introl eq_refl)). clear - Hg Hh. induction gs as [|f gs IHg]; [constructor|].
    inversion Hg; subst. cbn [flat_map]. rewrite map_app. apply nodup_app.
    + destruct (Hh p f) as [->| ->]; [constructor|constructor; [intros []|constructor]].
    + apply IHg; assumption.
    + intros x Hx Hy. destruct (Hh p f) as [Ef|Ef]; rewrite Ef in Hx; [destruct Hx|]. destruct Hx as [<-|[]].
      apply in_map_iff in Hy as ([q b] & Hq & Hy). cbn [fst] in Hq. subst q. apply in_flat_map in Hy as (f' & Hf' & Hy).
      apply (List.in_map fst) in Hy. cbn [fst] in Hy. destruct (Hh p f') as [Ef'|Ef']; rewrite Ef' in Hy; [destruct Hy|].
      destruct Hy as [Hy|[]]. apply app_inv_head in Hy. injection Hy as Hy.
      apply H1. rewrite <- Hy. apply List.in_map. exact Hf'.
  - apply IH; [assumption| |assumption]. intros q hs Hq. apply (Hg q hs). right; exact Hq.
  - intros x Hx Hy. apply in_map_iff in Hx as ([q b] & Hq & Hx). cbn [fst] in Hq. subst q.
    apply in_map_iff in Hy as ([q' b'] & Hq & Hy). cbn [fst] in Hq. subst q'.
    apply in_flat_map in Hx as (f & Hf & Hx). apply (List.in_map fst) in Hx. cbn [fst] in Hx.
    apply in_flat_map in Hy as ([p' gs'] & Hp' & Hy). cbn [fst snd] in Hy. apply in_flat_map in Hy as (f' & Hf' & Hy).
    apply (List.in_map fst) in Hy. cbn [fst] in Hy.
    destruct (Hh p f) as [Ef|Ef]; rewrite Ef in Hx; [destruct Hx|]. destruct Hx as [<-|[]].
    destruct (Hh p' f') as [Ef'|Ef']; rewrite Ef' in Hy; [destruct Hy|]. destruct Hy as [Hy|[]].
    apply app_inj_tail in Hy as [-> _]. apply H1. apply (List.in_map fst) in Hp'. exact Hp'.
Qed.

Lemma proper_names : forall gs, proper E gs -> NoDup (map fname gs).
Proof. intros gs H; inversion H; assumption. Qed.

Lemma matches_nodup : forall name lv, good_level lv -> NoDup (map fst (level_matches name lv)).
Proof.
  intros name lv [H1 H2]. unfold level_matches.
  apply (extend_nodup gtype lv H1 (fun p gs Hp => proper_names gs (H2 p gs Hp))
          (fun p f => if String.eqb (fname f) name then [(p ++ [name], ftype f)] else [])).
  intros p f. destruct (String.eqb (fname f) name) eqn:Ef; [|left; reflexivity]. apply String.eqb_eq in Ef. subst name. right; reflexivity.
Qed.

Lemma next_good : forall lv, good_level lv -> good_level (next_level E lv).
Proof.
  intros lv [H1 H2]. split.
  - unfold next_level.
    apply (extend_nodup (list gfield) lv H1 (fun p gs Hp => proper_names gs (H2 p gs Hp))
      (fun p f => match under E (ftype f) with TStruct gs => if fanon f then [(p ++ [fname f], gs)] else [] | _ => [] end)).
    intros p f. destruct (under E (ftype f)); try (left; reflexivity). destruct (fanon f); [right; reflexivity|left; reflexivity].
  - intros p gs Hp. unfold next_level in Hp. apply in_flat_map in Hp as ([q hs] & Hq & Hp). cbn [fst snd] in Hp.
    apply in_flat_map in Hp as (f & Hf & Hp). destruct (under E (ftype f)) as [k|u|u|u|k u|ks|m|b] eqn:Hu; try destruct Hp.
    destruct (fanon f) eqn:Ha; [|destruct Hp]. destruct Hp as [Hp|[]]. injection Hp as <- <-.
    specialize (H2 _ _ Hq). inversion H2 as [fs0 _ Hs]; subst. exact (Hs _ _ Hf Ha Hu).
Qed.

Lemma field_by_name_complete : forall n fs d lv name p t, at_depth E fs d lv -> good_level lv -> S d <= length p ->
  selects E fs name p t -> length p <= n + d -> field_by_name E n name lv = Some (p, t).
Proof.
  induction n as [|n IH]; intros fs d lv name p t Hd Hg Hmin Hs Hl; [lia|].
  cbn [field_by_name]. pose proof Hs as (Hp & Hlast & Hbest).
  destruct (Nat.eq_dec (length p) (S d)) as [Hlen|Hlen].
  - assert (Hin : In (p, t) (level_matches name lv)) by (eapply (level_matches_in E); [exact Hd|]; auto).
    assert (Hall : forall x, In x (level_matches name lv) -> x = (p, t)).
    { intros [q u] Hq. apply (level_matches_in E fs d lv name q u Hd) in Hq as (Hq1 & Hq2 & Hq3).
      destruct (Hbest q u Hq1 Hq2) as [_ Hb]. destruct Hb as [-> ->]; [lia|reflexivity]. }
    pose proof (matches_nodup name lv Hg) as Hnd.
    destruct (level_matches name lv) as [|x [|y r]]; [destruct Hin| |].
    + rewrite (Hall x); [reflexivity|left; reflexivity].
    + exfalso. rewrite (Hall x), (Hall y) in Hnd; [|right; left; reflexivity|left; reflexivity].
      inversion Hnd; subst. apply H1. left; reflexivity.
  - assert (Hnone : level_matches name lv = []).
    { destruct (level_matches name lv) as [|[q u] r] eqn:Em; [reflexivity|]. exfalso.
      assert (Hq : In (q, u) (level_matches name lv)) by (rewrite Em; left; reflexivity).
      apply (level_matches_in E fs d lv name q u Hd) in Hq as (Hq1 & Hq2 & Hq3).
      destruct (Hbest q u Hq1 Hq2) as [Hb _]. lia. }
    rewrite Hnone. pose proof (next_depth E fs d lv Hd) as Hd'.
    assert (IH' := IH fs (S d) (next_level E lv) name p t Hd' (next_good lv Hg) ltac:(lia) Hs ltac:(lia)).
    destruct (next_level E lv) as [|x r] eqn:En; [|exact IH'].
    exfalso. destruct n; [discriminate|]. cbn in IH'. discriminate.
Qed.

Lemma selects_by_name : forall fs name p t, proper E fs -> selects E fs name p t ->
  forall n, length p <= n -> field_by_name E n name [([], fs)] = Some (p, t).
Proof.
  intros fs name p t Hp Hs n Hn. eapply (field_by_name_complete n fs 0).
  - apply at_depth_0.
  - split; [constructor; [intros []|constructor]|]. intros q gs [Hq|[]]. injection Hq as <- <-. exact Hp.
  - destruct Hs as (Hs & _). apply (path_nonempty E) in Hs. lia.
  - exact Hs.
  - lia.
Qed.

(* ----- the loops ----- *)

Variable std : gtype -> gval -> option json -> gval * result unit.
Variable zero : gtype -> gval.
Variable assignable : gtype -> gtype -> bool.
Variable perm : list (string * json) -> list (string * json).
Hypothesis perm_ok : forall m, Permutation (perm m) m.

(* The nested call gives something that fits. *)
Definition fits (ref : refmap) (et : gtype) (ns : nested) (j : option json) : Prop :=
  exists t x, decode_one zero ref ns j = Ok (t, x) /\ assignable (TPtr t) et = true.

Lemma map_loop_total : forall ref kt et specs first raw acc, assignable (TBasic "string") kt = true ->
  (forall k j, In (k, j) raw -> fits ref et (match lookup k specs with Some s => s | None => first end) (Some j)) ->
  exists r, map_loop zero assignable ref kt et specs first raw acc = Ok r.
Proof.
  intros ref kt et specs first raw; induction raw as [|[k j] raw IH]; intros acc Hk H; [exists acc; reflexivity|].
  cbn [map_loop]. destruct (H k j) as (t & x & Hd & Ha); [left; reflexivity|]. rewrite Hd. cbn [bindr].
  rewrite Hk, Ha. cbn [andb]. apply IH; [exact Hk|]. intros k' j' Hin. apply H. right; exact Hin.
Qed.
Lemma list_loop_total : forall ref et specs first raw k0,
  (forall i j, nth_error raw i = Some j -> fits ref et (nth_or_first specs first (k0 + i)) (Some j)) ->
  exists r, list_loop zero assignable ref et specs first k0 raw = Ok r.
Proof.
  intros ref et specs first raw; induction raw as [|j raw IH]; intros k0 H; [exists []; reflexivity|].
  cbn [list_loop]. destruct (H 0 j) as (t & x & Hd & Ha); [reflexivity|]. rewrite Nat.add_0_r in Hd. rewrite Hd. cbn [bindr].
  rewrite Ha. destruct (IH (S k0)) as [r Hr].
  - intros i j' Hi. specialize (H (S i) j' Hi). replace (S k0 + i) with (k0 + S i) by lia. exact H.
  - rewrite Hr. eexists. reflexivity.
Qed.
Lemma listmap_loop_total : forall ref kt et specs first raw k0 acc, assignable (TBasic "string") kt = true ->
  (forall k j i, In (k, j) raw -> fits ref et (nth_or_first specs first i) (Some j)) ->
  exists r, listmap_loop zero assignable ref kt et specs first k0 raw acc = Ok r.
Proof.
  intros ref kt et specs first raw; induction raw as [|[k j] raw IH]; intros k0 acc Hk H; [exists acc; reflexivity|].
  cbn [listmap_loop]. destruct (H k j k0) as (t & x & Hd & Ha); [left; reflexivity|]. rewrite Hd. cbn [bindr].
  rewrite Hk, Ha. cbn [andb]. apply IH; [exact Hk|]. intros k' j' i Hin. apply (H k'). right; exact Hin.
Qed.
Lemma map2_inner_total : forall ref kt et specs first key0 raw acc, assignable (TArray (TBasic "string")) kt = true ->
  (forall k j, In (k, j) raw -> fits ref et (match lookup k specs with Some s => s | None => first end) (Some j)) ->
  exists r, map2_inner zero assignable ref kt et specs first key0 raw acc = Ok r.
Proof.
  intros ref kt et specs first key0 raw; induction raw as [|[k j] raw IH]; intros acc Hk H; [exists acc; reflexivity|].
  cbn [map2_inner]. destruct (H k j) as (t & x & Hd & Ha); [left; reflexivity|]. rewrite Hd. cbn [bindr].
  rewrite Hk, Ha. cbn [andb]. apply IH; [exact Hk|]. intros k' j' Hin. apply H. right; exact Hin.
Qed.
Lemma map2_outer_total : forall ref kt et specs firstms first raw acc, assignable (TArray (TBasic "string")) kt = true ->
  (forall a inner k j, In (a, inner) raw -> In (k, j) inner ->
     fits ref et (match lookup k (match lookup a specs with Some s => s | None => firstms end) with Some s => s | None => first end) (Some j)) ->
  exists r, map2_outer zero assignable ref kt et specs firstms first raw acc = Ok r.
Proof.
  intros ref kt et specs firstms first raw; induction raw as [|[a inner] raw IH]; intros acc Hk H; [exists acc; reflexivity|].
  cbn [map2_outer].
  destruct (map2_inner_total ref kt et (match lookup a specs with Some s => s | None => firstms end) first a inner acc Hk) as [r Hr].
  { intros k j Hin. apply (H a inner k j); [left; reflexivity|exact Hin]. }
  rewrite Hr. cbn [bindr]. apply IH; [exact Hk|]. intros a' inner' k j Hi Hj. apply (H a' inner'); [right; exact Hi|exact Hj].
Qed.

(* ----- one field ----- *)

Notation decodable := (decodable E std zero assignable).
Notation ju n := (json_unmarshal E n std zero assignable perm).
Notation nest n := (nest E n std zero assignable perm).

Definition able (s : sstruct) : Prop := forall ref t cur dat, NoDup (keys ref) ->
  well_founded (fun u t => inside E (implementations ref) t u) ->
  decodable ref s t cur dat -> exists d, forall n, d <= n -> exists v, ju n s ref t cur dat = (v, Ok tt).

Section Nested.
(* The reference map of the nested calls. *)
Variable ref : refmap.
Hypothesis Hnd : NoDup (keys ref).
Hypothesis Hwf : well_founded (fun u t => inside E (implementations ref) t u).

Lemma makes_one : forall s j t, able s -> makes zero (decodable ref) ref s j t ->
  exists d, forall n, d <= n -> exists x, decode_one zero ref (nest n s) j = Ok (t, x).
Proof.
  intros s j t Hs [Hl Hd]. destruct (Hs ref t (zero t) j Hnd Hwf Hd) as [d H]. exists d. intros n Hn.
  destruct (H n Hn) as [v Hv]. exists v. unfold decode_one, DetSound.nest. cbn [fst snd].
  unfold get_ref. change (match s with SStruct c _ => c end) with (class_of s).
  rewrite Hl. cbn [bindr]. rewrite Hv. reflexivity.
Qed.

(* One element decodes with one spec. *)
Lemma makes_fits : forall s j t e, able s -> makes zero (decodable ref) ref s j t -> assignable (TPtr t) e = true ->
  exists d, forall n, d <= n -> fits ref e (nest n s) j.
Proof.
  intros s j t e Hs Hm Ha. destruct (makes_one s j t Hs Hm) as [d H]. exists d. intros n Hn.
  destruct (H n Hn) as [x Hx]. exists t, x. auto.
Qed.

Definition field_done (n : nat) (om : list (string * svalue)) (f : gfield) (ft : gtype) (p : list string) (oj : option json) : Prop :=
  let x := NF f p (kind_of E om f) in
  exists raw vt v, raw_field std zero perm x oj = Ok raw /\
    field_result E zero assignable ref (nest_fields E n std zero assignable perm om) x raw (Some ft) = Ok (vt, v) /\ assignable vt ft = true.

Lemma raw_map_total : forall oj ms, entries oj ms -> exists m, raw_map perm oj = Ok m /\ Permutation m (dedup ms).
Proof.
  intros oj ms H. inversion H as [|j m Hm]; subst; [exists []; split; [reflexivity|constructor]|].
  inversion Hm; subst; [exists []; split; [reflexivity|constructor]|]. eexists. split; [reflexivity|apply perm_ok].
Qed.

Lemma field_total : forall om f ft p oj,
  (forall k sv s, In (k, sv) om -> in_value s sv -> able s) ->
  takes E std zero assignable (decodable ref) ref (lookup (fname f) om) f ft oj ->
  exists d, forall n, d <= n -> field_done n om f ft p oj.
Proof.
  intros om f ft p oj IH Ht.
  assert (IHf : forall sv s, lookup (fname f) om = Some sv -> in_value s sv -> able s).
  { intros sv s Hl Hin. apply lookup_In in Hl. exact (IH _ _ _ Hl Hin). }
  destruct Ht as [Hsp Hoj Ha|j v Hsp Hoj Hstd Ha|s t Hsp Hm Hp Ha|s t Hsp Hm Hp Ha|specs e js Hsp Hne Hu Hel Ha H
    |specs kt e ms Hsp Hne Hu Hel Ha Hk H|specs kt e ms Hsp Hne Hu Hel Ha Hk H|specs kt e ms k1 ms1 k2 s1 Hsp H1 H2 Hu Hel Hel2 Ha Hk H].
  - exists 0. intros n _. unfold field_done, raw_field, kind_of, field_result, nf_name, nest_fields. cbn [nf_kind nf_field].
    rewrite lookup_map_snd, Hsp, Hoj. cbn [option_map]. do 3 eexists. split; [reflexivity|]. split; [reflexivity|exact Ha].
  - exists 0. intros n _. unfold field_done, raw_field, kind_of, field_result, nf_name, nest_fields. cbn [nf_kind nf_field].
    rewrite lookup_map_snd, Hsp, Hoj. cbn [option_map]. do 3 eexists. split; [rewrite Hstd; reflexivity|]. split; [reflexivity|exact Ha].
  - destruct (makes_one s oj t (IHf _ _ Hsp (iv_single s)) Hm) as [d Hd]. exists d. intros n Hn.
    unfold field_done, raw_field, kind_of, field_result, nf_name, nest_fields. cbn [nf_kind nf_field].
    rewrite lookup_map_snd, Hsp. cbn [option_map]. destruct (Hd n Hn) as [x Hx]. do 3 eexists. split; [reflexivity|].
    rewrite nest_value_single. unfold handle_single. rewrite Hx. cbn [bindr option_map].
    destruct (pointer_like_match E _ ft (Ok (TPtr t, XPtr t x)) (Ok (t, x))) as [[_ ->]|[Hnp _]]; [|contradiction].
    split; [reflexivity|exact Ha].
  - destruct (makes_one s oj t (IHf _ _ Hsp (iv_single s)) Hm) as [d Hd]. exists d. intros n Hn.
    unfold field_done, raw_field, kind_of, field_result, nf_name, nest_fields. cbn [nf_kind nf_field].
    rewrite lookup_map_snd, Hsp. cbn [option_map]. destruct (Hd n Hn) as [x Hx]. do 3 eexists. split; [reflexivity|].
    rewrite nest_value_single. unfold handle_single. rewrite Hx. cbn [bindr option_map].
    destruct (pointer_like_match E _ ft (Ok (TPtr t, XPtr t x)) (Ok (t, x))) as [[Hnp _]|[_ ->]]; [contradiction|].
    split; [reflexivity|exact Ha].
  - (* list *)
    destruct specs as [|s0 specs]; [congruence|].
    destruct (bound _ (fun n ij => exists s, picks_list (s0 :: specs) (fst ij) s /\
        (forall s', picks_list (s0 :: specs) (fst ij) s' -> s' = s) /\ fits ref e (nest n s) (Some (snd ij)))
      (combine (seq 0 (length js)) js)) as [d Hd].
    { intros [i j] Hin.
      assert (Hi : nth_error js i = Some j).
      { apply In_nth_error in Hin as [m Hm]. clear - Hm.
        assert (G : forall l a m, nth_error (combine (seq a (length l)) l) m = Some (i, j) -> i = a + m /\ nth_error l m = Some j).
        { induction l as [|x l IHl]; intros a m0 H0; [destruct m0; discriminate|]. destruct m0 as [|m0]; cbn in H0.
          - injection H0 as <- <-. split; [lia|reflexivity].
          - apply IHl in H0 as [-> H0]. split; [lia|exact H0]. }
        apply G in Hm as [-> Hm]. exact Hm. }
      assert (Hpick : exists s, picks_list (s0 :: specs) i s /\ (forall s', picks_list (s0 :: specs) i s' -> s' = s) /\ In s (s0 :: specs)).
      { destruct (nth_error (s0 :: specs) i) as [s|] eqn:Hn.
        - exists s. split; [left; exact Hn|]. split; [|eapply nth_error_In; exact Hn].
          intros s' [Hs'|[Hlen _]]; [congruence|]. exfalso. assert (nth_error (s0 :: specs) i <> None) by congruence.
          apply nth_error_Some in H0. lia.
        - exists s0. apply nth_error_None in Hn. split; [right; split; [exact Hn|reflexivity]|]. split; [|left; reflexivity].
          intros s' [Hs'|[_ Hs']]; [|cbn in Hs'; congruence]. assert (nth_error (s0 :: specs) i <> None) by congruence.
          apply nth_error_Some in H0. lia. }
      destruct Hpick as (s & Hpick & Hun & Hins). destruct (H i j s Hi Hpick) as (t & Hm & Has).
      destruct (makes_fits s (Some j) t e (IHf _ _ Hsp (iv_list _ _ Hins)) Hm Has) as [d Hd]. exists d. intros n Hn.
      exists s. cbn [fst snd]. auto. }
    exists d. intros n Hn. unfold field_done, raw_field, kind_of, field_result, nf_name, nest_fields. cbn [nf_kind nf_field].
    rewrite lookup_map_snd, Hsp. cbn [option_map]. rewrite Hu.
    assert (Hraw : raw_list oj = Ok js) by (inversion Hel; subst; reflexivity). rewrite Hraw. cbn [bindr]. exists (RVList js).
    rewrite nest_value_list. unfold handle_list. cbn [map]. rewrite Hu.
    destruct (list_loop_total ref e (nest n s0 :: map (nest n) specs) (nest n s0) js 0) as [r Hr].
    { intros i j Hi. cbn [plus].
      destruct (Hd n Hn (i, j)) as (s & Hpick & Hun & Hfit).
      - clear - Hi. assert (G : forall l a m, nth_error l m = Some j -> In (a + m, j) (combine (seq a (length l)) l)).
        { induction l as [|x l IHl]; intros a m H0; [destruct m; discriminate|]. destruct m as [|m]; cbn in H0.
          - injection H0 as <-. left. f_equal. lia.
          - right. replace (a + S m) with (S a + m) by lia. apply IHl. exact H0. }
        apply (G js 0 i Hi).
      - destruct (nth_or_first_nest E n std zero assignable perm specs s0 i) as (s' & Hs' & Hp' & _). cbn [map] in Hs'. rewrite Hs'.
        cbn [fst] in Hun. rewrite (Hun s' Hp'). exact Hfit. }
    rewrite Hr. do 2 eexists. split; [reflexivity|]. split; [reflexivity|exact Ha].
  - (* list spec on a map *)
    destruct specs as [|s0 specs]; [congruence|].
    destruct (bound _ (fun n kj => forall s, In s (s0 :: specs) -> fits ref e (nest n s) (Some (snd kj)))
      (dedup ms)) as [d Hd].
    { intros [k j] Hin.
      assert (He : entry ms k j) by (apply (dedup_perm_in _ ms (dedup ms)); [apply Permutation_refl|exact Hin]).
      destruct (bound _ (fun n s => fits ref e (nest n s) (Some j)) (s0 :: specs)) as [d Hd].
      { intros s Hins. destruct (H k j s He Hins) as (t & Hm & Has). exact (makes_fits s (Some j) t e (IHf _ _ Hsp (iv_list _ _ Hins)) Hm Has). }
      exists d. intros n Hn s Hins. exact (Hd n Hn s Hins). }
    exists d. intros n Hn. unfold field_done, raw_field, kind_of, field_result, nf_name, nest_fields. cbn [nf_kind nf_field].
    rewrite lookup_map_snd, Hsp. cbn [option_map]. rewrite Hu. destruct (raw_map_total oj ms Hel) as (m & -> & Hm). cbn [bindr]. exists (RVMap m).
    rewrite nest_value_list. unfold handle_list. cbn [map]. rewrite Hu.
    destruct (listmap_loop_total ref kt e (nest n s0 :: map (nest n) specs) (nest n s0) m 0 [] Hk) as [r Hr].
    { intros k j i Hin. destruct (nth_or_first_nest E n std zero assignable perm specs s0 i) as (s' & Hs' & _ & Hin'). cbn [map] in Hs'. rewrite Hs'.
      apply (Hd n Hn (k, j)); [eapply Permutation_in; [exact Hm|exact Hin]|exact Hin']. }
    rewrite Hr. do 2 eexists. split; [reflexivity|]. split; [reflexivity|exact Ha].
  - (* map *)
    assert (Hfirst : exists s0 k0, get_first_from_map specs = Some s0 /\ smallest specs k0 s0).
    { destruct (get_first_from_map specs) as [s0|] eqn:Eg; [|apply first_from_map_none in Eg; contradiction].
      exists s0. destruct (proj1 (first_from_map _ _ _) Eg) as [k0 Hk0]. eauto. }
    destruct Hfirst as (s0 & k0 & Hfirst & Hsm).
    assert (Hpick : forall k, let s := match lookup k specs with Some s => s | None => s0 end in picks_map specs k s /\ in_value s (VMap specs)).
    { intros k. cbv zeta. destruct (lookup k specs) as [s|] eqn:El.
      - split; [left; exact El|]. apply lookup_In in El. exact (iv_map _ _ _ El).
      - split; [right; split; [exact El|exists k0; exact Hsm]|]. destruct Hsm as [Hs0 _]. apply lookup_In in Hs0. exact (iv_map _ _ _ Hs0). }
    destruct (bound _ (fun n kj => 
        fits ref e (nest n (match lookup (fst kj) specs with Some s => s | None => s0 end)) (Some (snd kj)))
      (dedup ms)) as [d Hd].
    { intros [k j] Hin. cbn [fst snd]. destruct (Hpick k) as [Hp1 Hp2].
      assert (He : entry ms k j) by (apply (dedup_perm_in _ ms (dedup ms)); [apply Permutation_refl|exact Hin]).
      destruct (H k j _ He Hp1) as (t & Hm & Has). exact (makes_fits _ (Some j) t e (IHf _ _ Hsp Hp2) Hm Has). }
    exists d. intros n Hn. unfold field_done, raw_field, kind_of, field_result, nf_name, nest_fields. cbn [nf_kind nf_field].
    rewrite lookup_map_snd, Hsp. cbn [option_map]. destruct (raw_map_total oj ms Hel) as (m & -> & Hm). cbn [bindr]. exists (RVMap m).
    rewrite nest_value_map. unfold handle_map. rewrite first_map_snd, Hfirst. cbn [option_map]. rewrite Hu.
    destruct (map_loop_total ref kt e (map (fun ks => (fst ks, nest n (snd ks))) specs) (nest n s0) m [] Hk) as [r Hr].
    { intros k j Hin. rewrite lookup_map_snd. specialize (Hd n Hn (k, j)). cbn [fst snd] in Hd.
      destruct (lookup k specs); cbn [option_map]; apply Hd; (eapply Permutation_in; [exact Hm|exact Hin]). }
    rewrite Hr. do 2 eexists. split; [reflexivity|]. split; [reflexivity|exact Ha].
  - (* two-level map *)
    set (inner a := match lookup a specs with Some s => s | None => ms1 end).
    set (pick a b := match lookup b (inner a) with Some s => s | None => s1 end).
    assert (Hpick : forall a b, picks_map2 specs a b (pick a b) /\ in_value (pick a b) (VMap2 specs)).
    { intros a b. unfold pick, picks_map2.
      assert (Hi : (lookup a specs = Some (inner a) \/ lookup a specs = None /\ (exists k, smallest specs k (inner a))) /\ exists k, In (k, inner a) specs).
      { unfold inner. destruct (lookup a specs) as [ms'|] eqn:El.
        - split; [left; reflexivity|]. apply lookup_In in El. eauto.
        - split; [right; split; [reflexivity|exists k1; exact H1]|]. destruct H1 as [H1 _]. apply lookup_In in H1. eauto. }
      destruct Hi as [Hi [ka Hka]]. destruct (lookup b (inner a)) as [s|] eqn:El.
      - split; [exists (inner a); split; [exact Hi|left; exact El]|]. apply lookup_In in El. exact (iv_map2 _ _ _ _ _ Hka El).
      - split; [exists (inner a); split; [exact Hi|right; split; [exact El|exists k1, ms1, k2; auto]]|].
        destruct H1 as [H1 _]. destruct H2 as [H2 _]. apply lookup_In in H1. apply lookup_In in H2. exact (iv_map2 _ _ _ _ _ H1 H2). }
    destruct (bound _ (fun n kj => forall ms', entries (Some (snd kj)) ms' -> forall b j', In (b, j') (dedup ms') ->
        fits ref e (nest n (pick (fst kj) b)) (Some j')) (dedup ms)) as [d Hd].
    { intros [a j] Hin. cbn [fst snd].
      assert (He : entry ms a j) by (apply (dedup_perm_in _ ms (dedup ms)); [apply Permutation_refl|exact Hin]).
      destruct (Hel2 a j He) as [ms' Hms'].
      destruct (bound _ (fun n bj => fits ref e (nest n (pick a (fst bj))) (Some (snd bj))) (dedup ms')) as [d Hd].
      { intros [b j'] Hb. cbn [fst snd]. destruct (Hpick a b) as [Hp1 Hp2].
        assert (He' : entry ms' b j') by (apply (dedup_perm_in _ ms' (dedup ms')); [apply Permutation_refl|exact Hb]).
        destruct (H a j ms' b j' _ He Hms' He' Hp1) as (t & Hm & Has). exact (makes_fits _ (Some j') t e (IHf _ _ Hsp Hp2) Hm Has). }
      exists d. intros n Hn ms'' Hms'' b j' Hb. rewrite (entries_fun _ _ _ Hms'' Hms') in Hb. exact (Hd n Hn (b, j') Hb). }
    exists d. intros n Hn. unfold field_done, raw_field, kind_of, field_result, nf_name, nest_fields. cbn [nf_kind nf_field].
    rewrite lookup_map_snd, Hsp. cbn [option_map]. destruct (raw_map_total oj ms Hel) as (m & -> & Hm). cbn [bindr].
    assert (Hm2 : exists m2, mapr (fun kj : string * json => do inner <- raw_map perm (Some (snd kj)); Ok (fst kj, inner)) m = Ok m2).
    { assert (G : forall l, (forall a j, In (a, j) l -> exists ms', entries (Some j) ms') ->
        exists m2, mapr (fun kj : string * json => do inner <- raw_map perm (Some (snd kj)); Ok (fst kj, inner)) l = Ok m2).
      { induction l as [|[a j] l IHl]; intros Hl; [exists []; reflexivity|].
        destruct (Hl a j (or_introl eq_refl)) as [ms' Hms']. destruct (raw_map_total _ _ Hms') as (m0 & Hm0 & _).
        destruct IHl as [m2 Hm2]; [intros a' j' Hin; apply (Hl a' j'); right; exact Hin|].
        cbn [mapr fst snd]. rewrite Hm0. cbn [bindr]. rewrite Hm2. eexists. reflexivity. }
      apply G. intros a j Hin. apply (Hel2 a). apply (dedup_perm_in _ ms m); assumption. }
    destruct Hm2 as [m2 Hm2]. rewrite Hm2. cbn [bindr]. exists (RVMap2 m2).
    destruct (raw_map2_ok perm perm_ok m m2 Hm2) as (_ & Hin2 & _).
    rewrite nest_value_map2. unfold handle_map2. rewrite first_map_snd.
    rewrite (proj2 (first_from_map _ specs ms1)) by (exists k1; exact H1). cbn [option_map].
    rewrite first_map_snd. rewrite (proj2 (first_from_map _ ms1 s1)) by (exists k2; exact H2). cbn [option_map]. rewrite Hu.
    set (nspecs := map (fun km : string * list (string * sstruct) => (fst km, map (fun ks => (fst ks, nest n (snd ks))) (snd km))) specs).
    destruct (map2_outer_total ref kt e nspecs (map (fun ks => (fst ks, nest n (snd ks))) ms1) (nest n s1) m2 [] Hk) as [r Hr].
    { intros a inn b j' Ha2 Hb. destruct (Hin2 a inn Ha2) as (j & ms' & Haj & Hms' & Hperm).
      assert (Hfit := Hd n Hn (a, j) (Permutation_in _ Hm Haj) ms' Hms' b j' (Permutation_in _ Hperm Hb)). cbn [fst] in Hfit.
      unfold nspecs. rewrite (lookup_map_snd _ _ (fun m0 : list (string * sstruct) => map (fun ks => (fst ks, nest n (snd ks))) m0)).
      unfold pick, inner in Hfit. destruct (lookup a specs) as [mm|]; cbn [option_map]; rewrite lookup_map_snd;
        match goal with |- context [option_map _ ?o] => destruct o end; exact Hfit. }
    rewrite Hr. do 2 eexists. split; [reflexivity|]. split; [reflexivity|exact Ha].
Qed.
End Nested.

(* ----- the fields of a target ----- *)

Lemma fields_step_total : forall fs ref specs n xs cur,
  (forall x raw, In (x, raw) xs -> exists q ft vt v, field_by_name E n (nf_name x) [([], fs)] = Some (q, ft) /\
     field_result E zero assignable ref specs x raw (Some ft) = Ok (vt, v) /\ assignable vt ft = true) ->
  exists v, fields_step E n zero assignable [([], fs)] ref specs xs cur = (v, Ok tt).
Proof.
  intros fs ref specs n xs; induction xs as [|[x raw] xs IH]; intros cur H; [exists cur; reflexivity|].
  cbn [fields_step]. destruct (H x raw) as (q & ft & vt & v & Hq & Hr & Ha); [left; reflexivity|].
  unfold field_step. rewrite Hq. cbn [option_map snd]. rewrite Hr. cbn [bindr fst snd set_field]. rewrite Ha. apply IH.
  intros y raw' Hy. apply H. right; exact Hy.
Qed.

Lemma nodup_has_dup : forall l, NoDup l -> has_dup l = false.
Proof.
  intros l H; induction H as [|x l Hx H IH]; [reflexivity|]. simpl. rewrite IH, orb_false_r.
  destruct (existsb (String.eqb x) l) eqn:Ex; [|reflexivity]. apply existsb_exists in Ex as (y & Hy & Heq).
  apply String.eqb_eq in Heq. subst y. contradiction.
Qed.

Lemma mapr_total : forall A B (f : A -> result B) l, (forall a, In a l -> exists b, f a = Ok b) -> exists r, mapr f l = Ok r.
Proof.
  intros A B f l; induction l as [|a l IH]; intros H; [exists []; reflexivity|].
  destruct (H a (or_introl eq_refl)) as [b Hb]. destruct IH as [r Hr]; [intros; apply H; right; assumption|].
  exists (b :: r). cbn [mapr]. rewrite Hb. cbn [bindr]. rewrite Hr. reflexivity.
Qed.

Lemma no_impls_nil : forall ref, NoDup (keys ref) -> no_impls ref -> implementations ref = [].
Proof.
  intros ref Hn H. unfold implementations.
  assert (G : forall kv, In kv ref -> (match snd kv with RImpls l => [(fst kv, l)] | _ => [] end) = []).
  { intros [c r] Hin. cbn [snd fst]. destruct r as [t|l| |]; try reflexivity. exfalso. apply (H c l). apply In_lookup; assumption. }
  clear Hn H. induction ref as [|kv ref IH]; [reflexivity|]. cbn [flat_map]. rewrite (G kv (or_introl eq_refl)). apply IH.
  intros kv' Hin. apply G. right; exact Hin.
Qed.

Lemma no_impls_wf : forall impls, well_founded (fun u t => inside E impls t u) -> well_founded (fun u t => inside E [] t u).
Proof.
  intros impls H t. induction (H t) as [t _ IH]. constructor. intros u Hu. apply IH.
  inversion Hu; subst; [eapply in_slice; eassumption|eapply CollectSpec.in_map; eassumption|discriminate].
Qed.

Lemma known_merge : forall ref t n auto, NoDup (keys ref) -> collect E (implementations ref) n (TPtr t) [] = Some auto ->
  known E ref t (merge auto ref).
Proof.
  intros ref t n auto Hnd Hc. split; [apply (merge_spec E n); assumption|].
  intros [H1 H2] c m Hc' Hr Hk. rewrite merge_discovered; [|exact Hnd|].
  - rewrite (proj2 (collect_exact E _ (TPtr t) n auto H1 H2 Hc c m)); [reflexivity|]. auto.
  - destruct (lookup c ref) as [r|] eqn:El; [|left; reflexivity]. destruct (Hc' r eq_refl) as [l ->]. right. eauto.
Qed.

Theorem unmarshal_total : forall s, able s.
Proof.
  apply sstruct_induction. intros c fo IH ref t cur dat Hnd Hwf Hd.
  inversion Hd as [? ? ? ? ? ? v Hfo Hv|? ? om ? ? ? fs l ms Hne Hu Hpr Hfl Hno Hms Hf]; subst.
  - exists 0. intros n _. exists v. destruct Hfo as [->| ->]; exact Hv.
  - destruct (collect_terminates E _ Hwf (TPtr t)) as (d1 & auto & Hc).
    destruct (merge_spec E d1 ref t auto Hnd Hc) as [Hm Hnd'].
    assert (Hni := no_impls_nil _ Hnd' (merged_no_impls E ref t _ Hm)).
    assert (Hwf' : well_founded (fun u t => inside E (implementations (merge auto ref)) t u)) by (rewrite Hni; exact (no_impls_wf _ Hwf)).
    destruct (flat_loop fs l Hfl) as [d2 Hloop].
    destruct (bound _ (fun n pf => exists q ft, length q <= n /\ selects E fs (fname (snd pf)) q ft /\
      field_done (merge auto ref) n om (snd pf) ft (fst pf) (jget E om (map snd l) (snd pf) ms)) l) as [d3 Hdone].
    { intros [p f] Hin. cbn [fst snd]. destruct (Hf _ p f (known_merge ref t d1 auto Hnd Hc) Hin) as (q & ft & Hs & Ht).
      destruct (field_total (merge auto ref) Hnd' Hwf' om f ft p _ (fun k sv s Hk Hi => IH om k sv s eq_refl Hk Hi) Ht) as [d Hd'].
      exists (max d (length q)). intros n Hn. exists q, ft. split; [lia|]. split; [exact Hs|]. apply Hd'. lia. }
    exists (max d1 (max d2 d3)). intros n Hn. destruct om as [|kv om]; [congruence|]. cbn [json_unmarshal].
    set (om' := kv :: om) in *. fold (nest_fields E n std zero assignable perm om').
    unfold with_spec. rewrite (fuel_mono E _ d1 n _ _ _ Hc) by lia. rewrite Hu. rewrite (Hloop n ltac:(lia) om' []).
    set (nfs := map _ l).
    assert (Hnf : map nf_field nfs = map snd l) by (unfold nfs; rewrite map_map; reflexivity).
    assert (Hdn : forall x, In x nfs -> exists q ft raw vt v, field_by_name E n (nf_name x) [([], fs)] = Some (q, ft) /\
      raw_field std zero perm x (jget E om' (map nf_field nfs) (nf_field x) ms) = Ok raw /\
      field_result E zero assignable (merge auto ref) (nest_fields E n std zero assignable perm om') x raw (Some ft) = Ok (vt, v) /\ assignable vt ft = true).
    { intros x Hx. unfold nfs in Hx. apply in_map_iff in Hx as ([p f] & <- & Hin). cbn [fst snd app].
      destruct (Hdone n ltac:(lia) (p, f) Hin) as (q & ft & Hq & Hs & raw & vt & v & Hraw & Hres & Ha). cbn [fst snd] in *.
      exists q, ft, raw, vt, v. rewrite Hnf. cbn [nf_field]. unfold nf_name. cbn [nf_field].
      split; [apply selects_by_name; assumption|]. auto. }
    rewrite nodup_has_dup.
    2:{ unfold nfs. rewrite map_map. unfold nf_name. cbn [nf_field]. exact Hno. }
    destruct (mapr_total _ _ (fun x => raw_field std zero perm x (jget E om' (map nf_field nfs) (nf_field x) ms)) nfs) as [raws Hraws].
    { intros x Hx. destruct (Hdn x Hx) as (q & ft & raw & vt & v & _ & H & _). eauto. }
    assert (Hrs : raw_struct E std zero perm om' nfs dat = Ok raws).
    { inversion Hms; subst; exact Hraws. }
    rewrite Hrs. apply mapr_Forall2 in Hraws. destruct (combine_in _ _ _ _ _ Hraws) as [_ Hc2].
    apply fields_step_total. intros x raw Hx. apply Hc2 in Hx as [Hx Hrf].
    destruct (Hdn x Hx) as (q & ft & raw' & vt & v & H1 & H2 & H3 & H4). exists q, ft, vt, v.
    rewrite H2 in Hrf. injection Hrf as <-. auto.
Qed.
End Total.
