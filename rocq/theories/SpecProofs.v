(* Proofs about the spec builders (C08-C10). *)

From Verif Require Import Base SpecModel SpecSpec.
From Coq Require Import ZifyBool ZifyNat ZifyN.
Ltac Zify.zify_post_hook ::= Z.div_mod_to_equations.

(* ------------------------------------------------------------------- UTF-8 *)

Lemma byte_chr : forall z, (0 <= z < 256)%Z -> byte_of (chr z) = z.
Proof.
  intros z H. unfold byte_of, chr. rewrite N_ascii_embedding; lia.
Qed.

Lemma chr_byte : forall c, chr (byte_of c) = c.
Proof. intros c. apply byte_of_inj. apply byte_chr. apply byte_of_range. Qed.

Lemma valid_encode : forall c s, scalar c -> valid_utf8 (encode_scalar c +++ s) = valid_utf8 s.
Proof.
  intros c s Hc. unfold encode_scalar, scalar in *.
  destruct (c <? 128)%Z eqn:E1; [|destruct (c <? 2048)%Z eqn:E2; [|destruct (c <? 65536)%Z eqn:E3]];
  cbn [append valid_utf8]; cbv zeta; rewrite !byte_chr by lia; unfold inr.
  - replace ((0 <=? c) && (c <=? 127))%Z with true by lia. reflexivity.
  - replace ((0 <=? 192 + c / 64) && (192 + c / 64 <=? 127))%Z with false by lia.
    replace ((194 <=? 192 + c / 64) && (192 + c / 64 <=? 223))%Z with true by lia.
    replace ((128 <=? 128 + c mod 64) && (128 + c mod 64 <=? 191))%Z with true by lia. reflexivity.
  - replace ((0 <=? 224 + c / 4096) && (224 + c / 4096 <=? 127))%Z with false by lia.
    replace ((194 <=? 224 + c / 4096) && (224 + c / 4096 <=? 223))%Z with false by lia.
    replace ((224 <=? 224 + c / 4096) && (224 + c / 4096 <=? 239))%Z with true by lia.
    replace ((128 <=? 128 + c mod 64) && (128 + c mod 64 <=? 191))%Z with true by lia.
    replace (((if (224 + c / 4096 =? 224)%Z then 160 else 128) <=? 128 + (c / 64) mod 64)
      && (128 + (c / 64) mod 64 <=? (if (224 + c / 4096 =? 237)%Z then 159 else 191)))%Z with true; [reflexivity|].
    destruct (224 + c / 4096 =? 224)%Z eqn:E4; destruct (224 + c / 4096 =? 237)%Z eqn:E5; lia.
  - replace ((0 <=? 240 + c / 262144) && (240 + c / 262144 <=? 127))%Z with false by lia.
    replace ((194 <=? 240 + c / 262144) && (240 + c / 262144 <=? 223))%Z with false by lia.
    replace ((224 <=? 240 + c / 262144) && (240 + c / 262144 <=? 239))%Z with false by lia.
    replace ((240 <=? 240 + c / 262144) && (240 + c / 262144 <=? 244))%Z with true by lia.
    replace ((128 <=? 128 + c mod 64) && (128 + c mod 64 <=? 191))%Z with true by lia.
    replace ((128 <=? 128 + (c / 64) mod 64) && (128 + (c / 64) mod 64 <=? 191))%Z with true by lia.
    replace (((if (240 + c / 262144 =? 240)%Z then 144 else 128) <=? 128 + (c / 4096) mod 64)
      && (128 + (c / 4096) mod 64 <=? (if (240 + c / 262144 =? 244)%Z then 143 else 191)))%Z with true; [reflexivity|].
    destruct (240 + c / 262144 =? 240)%Z eqn:E4; destruct (240 + c / 262144 =? 244)%Z eqn:E5; lia.
Qed.

Lemma valid_peel : forall s, s <> "" -> valid_utf8 s = true ->
  exists c t, scalar c /\ s = encode_scalar c +++ t /\ String.length t < String.length s.
Proof.
  intros [|c0 s1] Hne H; [congruence|]. clear Hne. cbn [valid_utf8] in H. cbv zeta in H.
  unfold inr in H. pose proof (byte_of_range c0) as R0.
  destruct ((0 <=? byte_of c0) && (byte_of c0 <=? 127))%Z eqn:E0.
  { exists (byte_of c0), s1. split; [unfold scalar; lia|]. split; [|simpl; lia].
    unfold encode_scalar. replace (byte_of c0 <? 128)%Z with true by lia.
    rewrite chr_byte. reflexivity. }
  destruct s1 as [|c1 s2]; [discriminate|]. pose proof (byte_of_range c1) as R1.
  destruct ((194 <=? byte_of c0) && (byte_of c0 <=? 223))%Z eqn:E1.
  { apply andb_prop in H; destruct H as [H Hv].
    exists ((byte_of c0 - 192) * 64 + (byte_of c1 - 128))%Z, s2.
    split; [unfold scalar; lia|]. split; [|simpl; lia].
    unfold encode_scalar.
    replace ((byte_of c0 - 192) * 64 + (byte_of c1 - 128) <? 128)%Z with false by lia.
    replace ((byte_of c0 - 192) * 64 + (byte_of c1 - 128) <? 2048)%Z with true by lia.
    replace (192 + ((byte_of c0 - 192) * 64 + (byte_of c1 - 128)) / 64)%Z with (byte_of c0) by lia.
    replace (128 + ((byte_of c0 - 192) * 64 + (byte_of c1 - 128)) mod 64)%Z with (byte_of c1) by lia.
    rewrite !chr_byte. reflexivity. }
  destruct s2 as [|c2 s3]; [discriminate|]. pose proof (byte_of_range c2) as R2.
  destruct ((224 <=? byte_of c0) && (byte_of c0 <=? 239))%Z eqn:E2.
  { apply andb_prop in H; destruct H as [H Hv]. apply andb_prop in H; destruct H as [H H2].
    remember ((byte_of c0 - 224) * 4096 + (byte_of c1 - 128) * 64 + (byte_of c2 - 128))%Z as c eqn:Ec.
    assert (Hr1 : (128 <= byte_of c1 <= 191)%Z).
    { destruct (byte_of c0 =? 224)%Z; destruct (byte_of c0 =? 237)%Z; lia. }
    assert (Hc : (2048 <= c < 65536)%Z).
    { destruct (byte_of c0 =? 224)%Z eqn:E3; destruct (byte_of c0 =? 237)%Z eqn:E4; lia. }
    exists c, s3.
    split; [unfold scalar; destruct (byte_of c0 =? 224)%Z eqn:E3; destruct (byte_of c0 =? 237)%Z eqn:E4; lia|].
    split; [|simpl; lia].
    unfold encode_scalar.
    replace (c <? 128)%Z with false by lia. replace (c <? 2048)%Z with false by lia.
    replace (c <? 65536)%Z with true by lia.
    replace (224 + c / 4096)%Z with (byte_of c0) by lia.
    replace (128 + (c / 64) mod 64)%Z with (byte_of c1) by lia.
    replace (128 + c mod 64)%Z with (byte_of c2) by lia.
    rewrite !chr_byte. reflexivity. }
  destruct s3 as [|c3 s4]; [discriminate|]. pose proof (byte_of_range c3) as R3.
  destruct ((240 <=? byte_of c0) && (byte_of c0 <=? 244))%Z eqn:E3; [|discriminate].
  apply andb_prop in H; destruct H as [H Hv]. apply andb_prop in H; destruct H as [H H3].
  apply andb_prop in H; destruct H as [H H2].
  remember ((byte_of c0 - 240) * 262144 + (byte_of c1 - 128) * 4096 + (byte_of c2 - 128) * 64
    + (byte_of c3 - 128))%Z as c eqn:Ec.
  assert (Hr1 : (128 <= byte_of c1 <= 191)%Z).
  { destruct (byte_of c0 =? 240)%Z; destruct (byte_of c0 =? 244)%Z; lia. }
  assert (Hc : (65536 <= c < 1114112)%Z).
  { destruct (byte_of c0 =? 240)%Z eqn:E4; destruct (byte_of c0 =? 244)%Z eqn:E5; lia. }
  exists c, s4. split; [unfold scalar; lia|]. split; [|simpl; lia].
  unfold encode_scalar.
  replace (c <? 128)%Z with false by lia. replace (c <? 2048)%Z with false by lia.
  replace (c <? 65536)%Z with false by lia.
  replace (240 + c / 262144)%Z with (byte_of c0) by lia.
  replace (128 + (c / 4096) mod 64)%Z with (byte_of c1) by lia.
  replace (128 + (c / 64) mod 64)%Z with (byte_of c2) by lia.
  replace (128 + c mod 64)%Z with (byte_of c3) by lia.
  rewrite !chr_byte. reflexivity.
Qed.

Lemma valid_utf8_spec : forall s, valid_utf8 s = true <-> is_utf8 s.
Proof.
  intros s; split.
  - remember (String.length s) as n eqn:En. revert s En.
    induction n as [n IH] using lt_wf_ind. intros s En H.
    destruct (string_dec s "") as [->|Hne].
    + exists []; split; [constructor|reflexivity].
    + destruct (valid_peel s Hne H) as [c [t [Hc [-> Hlt]]]].
      rewrite valid_encode in H by exact Hc.
      destruct (IH (String.length t)) with (s := t) as [cs [Hcs ->]]; auto; [lia|].
      exists (c :: cs). split; [constructor; assumption|reflexivity].
  - intros [cs [Hcs ->]]. induction Hcs as [|c cs Hc _ IH]; [reflexivity|].
    cbn [fold_right]. rewrite valid_encode; assumption.
Qed.

(* --------------------------------------------------------------- induction *)

Definition gv_ind' (P : gv -> Prop)
  (Hstr : forall s, P (GStr s))
  (Hpair : forall a b, P a -> P b -> P (GPair a b))
  (Hstrs : forall l, P (GStrs l))
  (Hpairs : forall l, (forall a b, In (a, b) l -> P a /\ P b) -> P (GPairs l))
  (Hms : forall m, P (GMapStr m))
  (Hmp : forall m, (forall k a b, In (k, (a, b)) m -> P a /\ P b) -> P (GMapPair m))
  (Hm2s : forall m, P (GMap2Str m))
  (Hm2p : forall m, (forall k a b, In (k, (a, b)) m -> P a /\ P b) -> P (GMap2Pair m))
  (Hst : forall s, P (GStruct s))
  (Hsts : forall s, P (GStructs s))
  (Hmst : forall s, P (GMapStruct s))
  (Hmmst : forall s, P (GMapMapStruct s))
  (Hmap : forall m, (forall k v, In (k, v) m -> P v) -> P (GMap m))
  (Hnil : P GNil) (Hoth : P GOther) : forall v, P v.
Proof.
  fix IH 1. intros v; destruct v.
  - apply Hstr.
  - apply Hpair; apply IH.
  - apply Hstrs.
  - apply Hpairs. induction l as [|[a b] l IHl]; intros a' b' Hin; [destruct Hin|].
    destruct Hin as [E|Hin]; [|apply IHl; exact Hin]. pose proof (IH a) as Ha; pose proof (IH b) as Hb; inversion E; subst; split; assumption.
  - apply Hms.
  - apply Hmp. induction m as [|[k [a b]] l IHl]; intros k' a' b' Hin; [destruct Hin|].
    destruct Hin as [E|Hin]; [|apply (IHl k'); exact Hin]. pose proof (IH a) as Ha; pose proof (IH b) as Hb; inversion E; subst; split; assumption.
  - apply Hm2s.
  - apply Hm2p. induction m as [|[k [a b]] l IHl]; intros k' a' b' Hin; [destruct Hin|].
    destruct Hin as [E|Hin]; [|apply (IHl k'); exact Hin]. pose proof (IH a) as Ha; pose proof (IH b) as Hb; inversion E; subst; split; assumption.
  - apply Hst.
  - apply Hsts.
  - apply Hmst.
  - apply Hmmst.
  - apply Hmap. induction m as [|[k v] l IHl]; intros k' v' Hin; [destruct Hin|].
    destruct Hin as [E|Hin]; [|apply (IHl k'); exact Hin]. pose proof (IH v) as Hv; inversion E; subst; assumption.
  - apply Hnil.
  - apply Hoth.
Qed.

(* ------------------------------------------------------------------- loops *)

Definition same_key {K A B} (R : A -> B -> Prop) (p : K * A) (q : K * B) : Prop :=
  fst p = fst q /\ R (snd p) (snd q).

Lemma same_key_keys : forall K A B (R : A -> B -> Prop) (m : list (K * A)) n,
  Forall2 (same_key R) m n -> map fst m = map fst n.
Proof.
  intros K A B R m n H; induction H as [|p q m n [E _] _ IH]; simpl; congruence.
Qed.

Lemma map_rel_of_list : forall K A B (R : A -> B -> Prop) (m : list (K * A)) n,
  NoDup (map fst m) -> Forall2 (same_key R) m n -> map_rel R m n.
Proof.
  intros K A B R m n Hnd H. pose proof (same_key_keys _ _ _ _ _ _ H) as Ek.
  split; [rewrite <- Ek; exact Hnd|]. split; [rewrite Ek; tauto|].
  induction H as [|[k1 a1] [k2 b2] m n [E HR] H IH]; intros k a b Ha Hb; [destruct Ha|].
  simpl in *. subst k2. inversion Hnd as [|x xs Hnot Hnd']; subst. inversion Ek.
  destruct Ha as [Ea|Ha]; destruct Hb as [Eb|Hb].
  - congruence.
  - inversion Ea; subst. exfalso; apply Hnot. rewrite H1. apply (in_map fst) in Hb; exact Hb.
  - inversion Eb; subst. exfalso; apply Hnot. apply (in_map fst) in Ha; exact Ha.
  - apply (IH Hnd' H1 k); assumption.
Qed.

Section Loops.
Variable f : gv -> result svalue.

Lemma fields_loop_ok : forall m x y, NoDup (map fst m) ->
  (forall k, In k (map fst m) -> ~ In k (map fst x)) -> fields_loop f m x = Ok y ->
  exists z, y = x ++ z /\ Forall2 (same_key (fun v w => f v = Ok w)) m z /\
    Forall (fun k => valid_utf8 k = true) (map fst m).
Proof.
  induction m as [|[k v] m IH]; intros x y Hnd Hdis H; simpl in *.
  - inversion H; subst. exists []. rewrite app_nil_r; auto.
  - destruct (valid_utf8 k) eqn:Ev; [|discriminate].
    apply bindr_Ok in H; destruct H as [w [Hw H]].
    inversion Hnd as [|? ? Hnot Hnd']; subst.
    assert (Ei : insert k w x = x ++ [(k, w)]) by (apply insert_not_in; apply Hdis; auto).
    rewrite Ei in H. apply IH in H; [|exact Hnd'|].
    + destruct H as [z [-> [Hz Hu]]]. exists ((k, w) :: z). rewrite <- app_assoc. split; [reflexivity|].
      split; [constructor; [split; simpl; auto|exact Hz]|constructor; assumption].
    + intros k' Hk'. rewrite map_app, in_app_iff. simpl. intros [Hin|[<-|[]]].
      * apply (Hdis k'); auto.
      * contradiction.
Qed.

Lemma fields_loop_iff : forall m x,
  (exists y, fields_loop f m x = Ok y) <->
  (forall k v, In (k, v) m -> valid_utf8 k = true /\ exists y, f v = Ok y).
Proof.
  induction m as [|[k v] m IH]; intros x; simpl.
  - split; [tauto|]. intros _; eauto.
  - destruct (valid_utf8 k) eqn:Ev.
    + split.
      * intros [y H] k' v' [E|Hin].
        -- inversion E; subst. apply bindr_Ok in H; destruct H as [w [Hw _]]. eauto.
        -- apply bindr_Ok in H; destruct H as [w [_ H]].
           apply (proj1 (IH _) (ex_intro _ _ H) k'); exact Hin.
      * intros H. destruct (H k v) as [_ [w Hw]]; auto. rewrite Hw. simpl. apply IH. intros; apply H; auto.
    + split; [intros [y H]; discriminate|]. intros H. destruct (H k v); auto; congruence.
Qed.

Definition single_ok (p : gv * gv) (x : sstruct) := new_single_struct f (fst p) (snd p) = Ok x.

Lemma list_struct_ok : forall l y, new_list_struct f l = Ok y <-> Forall2 single_ok l y.
Proof.
  induction l as [|[a b] l IH]; intros y; simpl; split; intros H.
  - inversion H; constructor.
  - inversion H; reflexivity.
  - apply bindr_Ok in H; destruct H as [s [Hs H]]. apply bindr_Ok in H; destruct H as [ss [Hss H]].
    inversion H; subst. constructor; [exact Hs|apply IH; exact Hss].
  - inversion H as [|p s l' ss Hs Hss]; subst. unfold single_ok in Hs; simpl in Hs. rewrite Hs. simpl.
    apply IH in Hss. rewrite Hss. reflexivity.
Qed.

Lemma map_struct_ok : forall m x y, NoDup (map fst m) ->
  (forall k, In k (map fst m) -> ~ In k (map fst x)) -> new_map_struct f m x = Ok y ->
  exists z, y = x ++ z /\ Forall2 (same_key single_ok) m z.
Proof.
  induction m as [|[k [a b]] m IH]; intros x y Hnd Hdis H; simpl in *.
  - inversion H; subst. exists []. rewrite app_nil_r; auto.
  - apply bindr_Ok in H; destruct H as [w [Hw H]].
    inversion Hnd as [|? ? Hnot Hnd']; subst.
    rewrite insert_not_in in H by (apply Hdis; auto). apply IH in H; [|exact Hnd'|].
    + destruct H as [z [-> Hz]]. exists ((k, w) :: z). rewrite <- app_assoc. split; [reflexivity|].
      constructor; [split; simpl; auto|exact Hz].
    + intros k' Hk'. rewrite map_app, in_app_iff. simpl. intros [Hin|[<-|[]]].
      * apply (Hdis k'); auto.
      * contradiction.
Qed.

Lemma map_struct_iff : forall m x,
  (exists y, new_map_struct f m x = Ok y) <->
  (forall k a b, In (k, (a, b)) m -> exists y, new_single_struct f a b = Ok y).
Proof.
  induction m as [|[k [a b]] m IH]; intros x; simpl.
  - split; [tauto|]. intros _; eauto.
  - split.
    + intros [y H] k' a' b' [E|Hin]; apply bindr_Ok in H; destruct H as [w [Hw H]].
      * inversion E; subst; eauto.
      * apply (proj1 (IH _) (ex_intro _ _ H) k'); exact Hin.
    + intros H. destruct (H k a b) as [w Hw]; auto. rewrite Hw. simpl. apply IH. intros; apply (H k0); auto.
Qed.

Definition inner (p : (string * string) * (gv * gv)) (q : string * list (string * sstruct)) : Prop :=
  exists s, single_ok (snd p) s /\ q = (fst (fst p), [(snd (fst p), s)]).

Lemma map2_struct_ok : forall m x y, NoDup (map (fun e => fst (fst e)) m) ->
  (forall k, In k (map (fun e => fst (fst e)) m) -> ~ In k (map fst x)) ->
  new_map2_struct f m x = Ok y ->
  exists z, y = x ++ z /\ Forall2 inner m z.
Proof.
  induction m as [|[[k j] [a b]] m IH]; intros x y Hnd Hdis H; cbn [new_map2_struct map fst snd] in *.
  - inversion H; subst. exists []. rewrite app_nil_r; auto.
  - apply bindr_Ok in H; destruct H as [w [Hw H]].
    inversion Hnd as [|? ? Hnot Hnd']; subst.
    rewrite (insert_not_in k) in H by (apply Hdis; left; reflexivity). apply IH in H; [|exact Hnd'|].
    + destruct H as [z [-> Hz]]. exists ((k, [(j, w)]) :: z). rewrite <- app_assoc. split; [reflexivity|].
      constructor; [exists w; split; [exact Hw|reflexivity]|exact Hz].
    + intros k' Hk'. rewrite map_app, in_app_iff. simpl. intros [Hin|[<-|[]]].
      * apply (Hdis k'); [right; exact Hk'|exact Hin].
      * contradiction.
Qed.

Lemma map2_struct_iff : forall m x,
  (exists y, new_map2_struct f m x = Ok y) <->
  (forall k a b, In (k, (a, b)) m -> exists y, new_single_struct f a b = Ok y).
Proof.
  induction m as [|[[k j] [a b]] m IH]; intros x; cbn [new_map2_struct].
  - split; [intros _ k a b []|]. intros _; eauto.
  - split.
    + intros [y H] k' a' b' [E|Hin]; apply bindr_Ok in H; destruct H as [w [Hw H]].
      * inversion E; subst; eauto.
      * apply (proj1 (IH _) (ex_intro _ _ H) k'); exact Hin.
    + intros H. destruct (H (k, j) a b) as [w Hw]; [left; reflexivity|].
      rewrite Hw. cbn [bindr]. apply IH. intros k0 a0 b0 Hin; apply (H k0); right; exact Hin.
Qed.

Lemma single_iff : forall a b, (exists y, new_single_struct f a b = Ok y) <->
  (exists name, a = GStr name /\ (b = GNil \/ exists m, b = GMap m /\
     forall k v, In (k, v) m -> valid_utf8 k = true /\ exists y, f v = Ok y)).
Proof.
  intros a b; split.
  - intros [y H]. destruct a; simpl in H; try discriminate. exists s; split; [reflexivity|].
    destruct b; simpl in H; try discriminate; [right|left; reflexivity].
    exists m; split; [reflexivity|]. apply bindr_Ok in H; destruct H as [z [Hz _]].
    apply (proj1 (fields_loop_iff m []) (ex_intro _ _ Hz)).
  - intros [name [-> [->|[m [-> H]]]]]; simpl; [eauto|].
    destruct (proj2 (fields_loop_iff m []) H) as [y Hy]. rewrite Hy. simpl; eauto.
Qed.

End Loops.

(* ---------------------------------------------------------------- subvalues *)

Lemma go_sub : forall v w, is_go_value v -> sub w v -> is_go_value w.
Proof.
  intros v w Hv Hs u Hu. apply Hv. clear Hv. revert u Hu.
  induction Hs; intros u' Hu'; [exact Hu'|..].
  - eapply sub_pair; [apply IHHs; eassumption|eassumption..].
  - eapply sub_pairs; [apply IHHs; eassumption|eassumption..].
  - eapply sub_mappair; [apply IHHs; eassumption|eassumption..].
  - eapply sub_map2pair; [apply IHHs; eassumption|eassumption..].
  - eapply sub_map; [apply IHHs; eassumption|eassumption..].
Qed.

Lemma fkd_sub : forall v w, first_keys_distinct v -> sub w v -> first_keys_distinct w.
Proof.
  intros v w Hv Hs u Hu. apply Hv. clear Hv. revert u Hu.
  induction Hs; intros u' Hu'; [exact Hu'|..].
  - eapply sub_pair; [apply IHHs; eassumption|eassumption..].
  - eapply sub_pairs; [apply IHHs; eassumption|eassumption..].
  - eapply sub_mappair; [apply IHHs; eassumption|eassumption..].
  - eapply sub_map2pair; [apply IHHs; eassumption|eassumption..].
  - eapply sub_map; [apply IHHs; eassumption|eassumption..].
Qed.

(* --------------------------------------------------------------- soundness *)

Definition gives (v : gv) := forall x, is_go_value v -> first_keys_distinct v ->
  new_value v = Ok x -> value_of v x.
(* gives for the field values of a struct map *)
Definition gives_fields (b : gv) := match b with
  | GMap m => forall k v, In (k, v) m -> gives v
  | _ => True
  end.

Lemma single_sound : forall a b x, gives_fields b -> is_go_value b -> first_keys_distinct b ->
  new_single_struct new_value a b = Ok x -> struct_of a b x.
Proof.
  intros a b x Hg Hgo Hf H. destruct a; simpl in H; try discriminate.
  destruct b; simpl in H; try discriminate.
  - apply bindr_Ok in H; destruct H as [z [Hz H]]; inversion H; subst.
    pose proof (Hgo _ (sub_refl _)) as Hnd. simpl in Hnd.
    apply fields_loop_ok in Hz; [|exact Hnd|intros k _ []].
    destruct Hz as [z' [-> [Hz Hu]]]. simpl. constructor.
    apply map_rel_of_list; [exact Hnd|].
    simpl in Hg. clear H. assert (Hsub : forall k v, In (k, v) m -> is_go_value v /\ first_keys_distinct v).
    { intros k v Hin. split; [eapply go_sub|eapply fkd_sub]; eauto; eapply sub_map; eauto using sub_refl. }
    clear Hgo Hf Hu Hnd. induction Hz as [|[k v] [k' w] m z [E Hw] Hz IH]; [constructor|].
    constructor.
    + simpl in *; subst. split; [reflexivity|]. simpl.
      destruct (Hsub k' v) as [H1 H2]; [left; reflexivity|].
      apply (Hg k'); auto.
    + apply IH; intros k0 v0 Hin; [apply (Hg k0)|apply (Hsub k0)]; right; exact Hin.
  - inversion H; subst. constructor.
Qed.

Lemma entries2_inner : forall f m z, Forall2 (inner f) m z ->
  Forall2 (same_key (single_ok f)) m (entries2 z).
Proof.
  intros f m z H; induction H as [|[[k j] p] q m z [s [Hs ->]] H IH]; [constructor|].
  simpl. constructor; [split; simpl; auto|exact IH].
Qed.

Lemma inner_keys : forall f m z, Forall2 (inner f) m z -> map (fun e => fst (fst e)) m = map fst z.
Proof.
  intros f m z H; induction H as [|p q m z [s [_ ->]] H IH]; simpl; congruence.
Qed.

Lemma inner_nonempty : forall f m z, Forall2 (inner f) m z -> forall k ms, In (k, ms) z -> ms <> [].
Proof.
  intros f m z H; induction H as [|p q m z [s [_ ->]] H IH]; intros k ms Hin; [destruct Hin|].
  destruct Hin as [E|Hin]; [inversion E; discriminate|eapply IH; eauto].
Qed.

Lemma conv_keys : forall K (m : list (K * string)), map fst (conv_map m) = map fst m.
Proof. intros K m; unfold conv_map; rewrite map_map; reflexivity. Qed.

Lemma conv_single : forall K f (m : list (K * string)) z,
  Forall2 (same_key (single_ok f)) (conv_map m) z ->
  Forall2 (same_key (fun s x => x = SStruct s None)) m z.
Proof.
  intros K f m; induction m as [|[k s] m IH]; intros z H; inversion H as [|? [k' x] ? z' [E HR] H']; subst.
  - constructor.
  - constructor; [|apply IH; exact H']. simpl in *. subst. split; [reflexivity|]. simpl.
    unfold single_ok in HR. simpl in HR. inversion HR; reflexivity.
Qed.

Lemma same_key_impl : forall K A B (R R' : A -> B -> Prop) (m : list (K * A)) n,
  (forall k a b, In (k, a) m -> R a b -> R' a b) -> Forall2 (same_key R) m n -> Forall2 (same_key R') m n.
Proof.
  intros K A B R R' m n Himp H; induction H as [|[k a] [k' b] m n [E HR] H IH]; constructor.
  - split; [exact E|]. simpl in *. apply (Himp k); auto.
  - apply IH. intros; eapply Himp; eauto. right; eauto.
Qed.

Theorem value_sound : forall v x, is_go_value v -> first_keys_distinct v ->
  new_value v = Ok x -> value_of v x.
Proof.
  assert (Hmain : forall v, gives v /\ gives_fields v).
  2:{ intros v; apply Hmain. }
  intros v; induction v as [s|a b IHa IHb|l|l IH|m|m IH|m|m IH|s|l|m|m|m IH| |] using gv_ind';
    (split; [unfold gives; intros x Hgo Hf H; simpl in H|simpl; auto]).
  - inversion H; constructor.
  - apply bindr_Ok in H; destruct H as [y [Hy H]]; inversion H; subst. constructor.
    eapply single_sound; eauto; [apply IHb|eapply go_sub; eauto|eapply fkd_sub; eauto];
      eapply sub_pair; eauto using sub_refl.
  - apply bindr_Ok in H; destruct H as [y [Hy H]]; inversion H; subst.
    replace y with (map (fun s => SStruct s None) l); [constructor|].
    apply list_struct_ok in Hy. clear H Hgo Hf. revert y Hy; induction l as [|s l IHl]; intros y Hy; inversion Hy; subst.
    + reflexivity.
    + simpl. f_equal; [|auto]. unfold single_ok in *. simpl in *. congruence.
  - apply bindr_Ok in H; destruct H as [y [Hy H]]; inversion H; subst. constructor.
    apply list_struct_ok in Hy. clear H.
    assert (Hall : forall a b, In (a, b) l -> gives_fields b /\ is_go_value b /\ first_keys_distinct b).
    { intros a b Hin. split; [apply (IH a b Hin)|]. split; [eapply go_sub|eapply fkd_sub]; eauto;
        eapply sub_pairs; eauto using sub_refl. }
    clear IH Hgo Hf. induction Hy as [|[a b] s l ss Hs Hss IH]; [constructor|]. constructor.
    + destruct (Hall a b) as [H1 [H2 H3]]; [left; reflexivity|]. simpl. eapply single_sound; eauto.
    + apply IH. intros a' b' Hin. apply (Hall a'). right; exact Hin.
  - apply bindr_Ok in H; destruct H as [y [Hy H]]; inversion H; subst. constructor.
    pose proof (Hgo _ (sub_refl _)) as Hnd. simpl in Hnd.
    apply map_struct_ok in Hy; [|rewrite conv_keys; exact Hnd|intros k _ []].
    destruct Hy as [z [-> Hz]]. apply conv_single in Hz. apply map_rel_of_list; auto.
  - apply bindr_Ok in H; destruct H as [y [Hy H]]; inversion H; subst. constructor.
    pose proof (Hgo _ (sub_refl _)) as Hnd. simpl in Hnd.
    apply map_struct_ok in Hy; [|exact Hnd|intros k _ []].
    destruct Hy as [z [-> Hz]]. apply map_rel_of_list; auto.
    eapply same_key_impl; [|exact Hz]. intros k [a b] s Hin Hs. simpl.
    eapply single_sound; eauto; [apply (IH k a b Hin)|eapply go_sub; eauto|eapply fkd_sub; eauto];
      eapply sub_mappair; eauto using sub_refl.
  - apply bindr_Ok in H; destruct H as [y [Hy H]]; inversion H; subst. constructor.
    pose proof (Hgo _ (sub_refl _)) as Hnd. pose proof (Hf _ (sub_refl _)) as Hfd. simpl in Hnd, Hfd.
    apply map2_struct_ok in Hy; [|unfold conv_map; rewrite map_map; exact Hfd|intros k _ []].
    destruct Hy as [z [-> Hz]]. simpl. split; [|split].
    + rewrite <- (inner_keys _ _ _ Hz). unfold conv_map. rewrite map_map. exact Hfd.
    + eapply inner_nonempty; eauto.
    + apply entries2_inner in Hz. apply conv_single in Hz. apply map_rel_of_list; auto.
  - apply bindr_Ok in H; destruct H as [y [Hy H]]; inversion H; subst. constructor.
    pose proof (Hgo _ (sub_refl _)) as Hnd. pose proof (Hf _ (sub_refl _)) as Hfd. simpl in Hnd, Hfd.
    apply map2_struct_ok in Hy; [|exact Hfd|intros k _ []].
    destruct Hy as [z [-> Hz]]. simpl. split; [|split].
    + rewrite <- (inner_keys _ _ _ Hz). exact Hfd.
    + eapply inner_nonempty; eauto.
    + apply entries2_inner in Hz. apply map_rel_of_list; auto.
      eapply same_key_impl; [|exact Hz]. intros k [a b] s Hin Hs. simpl.
      eapply single_sound; eauto; [apply (IH k a b Hin)|eapply go_sub; eauto|eapply fkd_sub; eauto];
        eapply sub_map2pair; eauto using sub_refl.
  - inversion H; constructor.
  - inversion H; constructor.
  - inversion H; constructor.
  - inversion H; constructor.
  - discriminate.
  - intros k v Hin. apply (IH k v Hin).
  - discriminate.
  - discriminate.
Qed.

(* ---------------------------------------------------- success = well-formed *)

Definition succeeds (v : gv) := (exists x, new_value v = Ok x) <-> wf_value v.
Definition succeeds_fields (b : gv) := match b with
  | GMap m => forall k v, In (k, v) m -> succeeds v
  | _ => True
  end.

Lemma single_wf : forall a b, succeeds_fields b ->
  ((exists y, new_single_struct new_value a b = Ok y) <-> wf_struct a b).
Proof.
  intros a b Hb. rewrite single_iff. split.
  - intros [name [-> [->|[m [-> H]]]]]; constructor. intros k v Hin. destruct (H k v Hin) as [H1 H2].
    split; [apply valid_utf8_spec; exact H1|]. apply (Hb k v Hin); exact H2.
  - intros H; inversion H as [|name m Hm]; subst.
    + exists name; auto.
    + exists name; split; [reflexivity|]. right; exists m; split; [reflexivity|]. intros k v Hin.
      destruct (Hm k v Hin) as [H1 H2]. split; [apply valid_utf8_spec; exact H1|].
      apply (Hb k v Hin); exact H2.
Qed.

Lemma bind_iff : forall A B (r : result A) (g : A -> B),
  (exists x, (do y <- r; Ok (g y)) = Ok x) <-> (exists y, r = Ok y).
Proof.
  intros A B r g; split.
  - intros [x H]. apply bindr_Ok in H. destruct H as [y [H _]]; eauto.
  - intros [y ->]. simpl; eauto.
Qed.

Lemma forall2_exists : forall A B (R : A -> B -> Prop) l,
  (exists ys, Forall2 R l ys) <-> (forall a, In a l -> exists b, R a b).
Proof.
  intros A B R l; induction l as [|a l IH]; split.
  - intros _ a [].
  - intros _; exists []; constructor.
  - intros [ys H] x Hin; inversion H as [|? b ? ys' HR H']; subst.
    destruct Hin as [<-|Hin]; [eauto|]. apply (proj1 IH (ex_intro _ _ H')); exact Hin.
  - intros H. destruct (H a) as [b Hb]; [left; reflexivity|].
    destruct (proj2 IH) as [ys Hys]; [intros x Hin; apply H; right; exact Hin|].
    exists (b :: ys); constructor; assumption.
Qed.

Theorem value_succeeds : forall v, (exists x, new_value v = Ok x) <-> wf_value v.
Proof.
  assert (Hmain : forall v, succeeds v /\ succeeds_fields v).
  2:{ intros v; apply Hmain. }
  intros v; induction v as [s|a b IHa IHb|l|l IH|m|m IH|m|m IH|s|l|m|m|m IH| |] using gv_ind';
    (split; [unfold succeeds; cbn [new_value]|simpl; auto]).
  - split; [constructor|intros _; simpl; eauto].
  - rewrite bind_iff, single_wf by apply IHb. split; [constructor; assumption|inversion 1; assumption].
  - rewrite bind_iff. split; [constructor|]. intros _.
    assert (H : exists y, Forall2 (single_ok no_value) (map pair_str l) y).
    { apply forall2_exists. intros p Hin. apply in_map_iff in Hin. destruct Hin as [s [<- _]].
      unfold single_ok; simpl; eauto. }
    destruct H as [y Hy]. apply list_struct_ok in Hy; eauto.
  - rewrite bind_iff. transitivity (exists y, Forall2 (single_ok new_value) l y).
    { split; intros [y Hy]; exists y; apply list_struct_ok; exact Hy. }
    rewrite forall2_exists. split.
    + intros H; constructor. intros a b Hin. apply single_wf; [apply (IH a b Hin)|].
      apply (H (a, b) Hin).
    + intros H [a b] Hin. inversion H as [| | |? H' | | | | | | | |]; subst. unfold single_ok.
      apply single_wf; [apply (IH a b Hin)|]. apply (H' a b Hin).
  - rewrite bind_iff, map_struct_iff. split; [constructor|]. intros _ k a b Hin.
    unfold conv_map in Hin. apply in_map_iff in Hin. destruct Hin as [[k' s] [E _]]. inversion E; subst.
    simpl; eauto.
  - rewrite bind_iff, map_struct_iff. split.
    + intros H; constructor. intros k a b Hin. apply single_wf; [apply (IH k a b Hin)|]. apply (H k a b Hin).
    + intros H k a b Hin. inversion H as [| | | | |? H' | | | | | |]; subst.
      apply single_wf; [apply (IH k a b Hin)|]. apply (H' k a b Hin).
  - rewrite bind_iff, map2_struct_iff. split; [constructor|]. intros _ k a b Hin.
    unfold conv_map in Hin. apply in_map_iff in Hin. destruct Hin as [[k' s] [E _]]. inversion E; subst.
    simpl; eauto.
  - rewrite bind_iff, map2_struct_iff. split.
    + intros H; constructor. intros k a b Hin. apply single_wf; [apply (IH k a b Hin)|]. apply (H k a b Hin).
    + intros H k a b Hin. inversion H as [| | | | | | |? H' | | | |]; subst.
      apply single_wf; [apply (IH k a b Hin)|]. apply (H' k a b Hin).
  - split; [constructor|eauto].
  - split; [constructor|eauto].
  - split; [constructor|eauto].
  - split; [constructor|eauto].
  - split; [intros [x H]; discriminate|inversion 1].
  - intros k v Hin; apply (IH k v Hin).
  - split; [intros [x H]; discriminate|inversion 1].
  - split; [intros [x H]; discriminate|inversion 1].
Qed.

(* NewStruct with one map. *)
Theorem struct_succeeds : forall name m,
  (exists x, new_struct new_value name (Some [m]) = Ok x) <-> wf_struct (GStr name) (GMap m).
Proof.
  intros name m. rewrite <- (single_wf (GStr name) (GMap m)); [reflexivity|].
  intros k v _. apply value_succeeds.
Qed.

Theorem struct_sound : forall name m x, is_go_value (GMap m) -> first_keys_distinct (GMap m) ->
  new_struct new_value name (Some [m]) = Ok x -> struct_of (GStr name) (GMap m) x.
Proof.
  intros name m x Hgo Hf H. apply single_sound; auto.
  intros k v Hin y Hg Hd Hy. apply value_sound; auto.
Qed.

(* ------------------------------------------------------- order independence *)

Lemma in_key : forall K A (k : K) (m : list (K * A)), In k (map fst m) -> exists a, In (k, a) m.
Proof.
  intros K A k m H. apply in_map_iff in H. destruct H as [[k' a] [E H]]. simpl in E; subst; eauto.
Qed.

Lemma key_in : forall K A (k : K) (a : A) m, In (k, a) m -> In k (map fst m).
Proof. intros K A k a m H. apply (in_map fst) in H. exact H. Qed.

Lemma map_rel_compose : forall K A B C D (R1 : A -> B -> Prop) (R2 : A -> C -> Prop) (R3 : C -> D -> Prop)
    (S : B -> D -> Prop) (m : list (K * A)) (m' : list (K * C)) n n',
  map_rel R1 m n -> map_rel R2 m m' -> map_rel R3 m' n' ->
  (forall k a b c d, In (k, a) m -> In (k, c) m' -> R1 a b -> R2 a c -> R3 c d -> S b d) ->
  map_rel S n n'.
Proof.
  intros K A B C D R1 R2 R3 S m m' n n' [N1 [K1 V1]] [N2 [K2 V2]] [N3 [K3 V3]] HS.
  split; [exact N3|]. split.
  - intros k. rewrite <- K3, <- K2, K1. tauto.
  - intros k b d Hb Hd.
    destruct (in_key _ _ k m) as [a Ha]; [apply K1; eapply key_in; eauto|].
    destruct (in_key _ _ k m') as [c Hc]; [apply K3; eapply key_in; eauto|].
    eapply HS; eauto.
Qed.

Lemma entries2_in : forall A (x : list (string * list (string * A))) k j s,
  In ((k, j), s) (entries2 x) <-> exists ms, In (k, ms) x /\ In (j, s) ms.
Proof.
  intros A x k j s. unfold entries2. rewrite in_flat_map. split.
  - intros [[k' ms] [Hin Hm]]. simpl in Hm. apply in_map_iff in Hm. destruct Hm as [[j' s'] [E Hm]].
    inversion E; subst. eauto.
  - intros [ms [H1 H2]]. exists (k, ms). split; [exact H1|]. simpl. apply in_map_iff.
    exists (j, s); auto.
Qed.

Lemma entries2_nodup : forall A (x : list (string * list (string * A))) k ms,
  NoDup (map fst (entries2 x)) -> In (k, ms) x -> NoDup (map fst ms).
Proof.
  intros A x k ms; induction x as [|[k' ms'] x IH]; intros Hnd Hin; [destruct Hin|].
  unfold entries2 in Hnd. simpl in Hnd. rewrite map_app in Hnd.
  destruct Hin as [E|Hin].
  - inversion E; subst. apply NoDup_app_l in Hnd. rewrite map_map in Hnd.
    clear -Hnd. induction ms as [|[j s] ms IH]; simpl in *; [constructor|].
    inversion Hnd as [|? ? Hnot Hnd']; subst. constructor; [|auto].
    intros Hin. apply Hnot. apply in_map_iff. apply in_map_iff in Hin.
    destruct Hin as [p [E Hp]]. exists p. rewrite E; auto.
  - apply IH; [|exact Hin]. apply NoDup_app_r in Hnd. exact Hnd.
Qed.

Lemma nodup_fun : forall K A (k : K) (a b : A) m, NoDup (map fst m) -> In (k, a) m -> In (k, b) m -> a = b.
Proof.
  intros K A k a b m; induction m as [|[k' c] m IH]; intros Hnd Ha Hb; [destruct Ha|].
  inversion Hnd as [|? ? Hnot Hnd']; subst. destruct Ha as [Ea|Ha]; destruct Hb as [Eb|Hb].
  - congruence.
  - inversion Ea; subst. exfalso; apply Hnot. eapply key_in; eauto.
  - inversion Eb; subst. exfalso; apply Hnot. eapply key_in; eauto.
  - auto.
Qed.

Lemma entries2_rel : forall A B (S : A -> B -> Prop) (n : list (string * list (string * A))) n',
  NoDup (map fst n) -> NoDup (map fst n') ->
  (forall k ms, In (k, ms) n -> ms <> []) -> (forall k ms, In (k, ms) n' -> ms <> []) ->
  NoDup (map fst (entries2 n)) ->
  map_rel S (entries2 n) (entries2 n') -> map_rel (map_rel S) n n'.
Proof.
  intros A B S n n' N N' E E' Nn [Ne [Ke Ve]].
  split; [exact N'|]. split.
  - intros k. split; intros Hk; apply in_key in Hk; destruct Hk as [ms Hms].
    + pose proof (E _ _ Hms) as Hne. destruct ms as [|[j s] ms]; [congruence|].
      assert (Hin : In (k, j) (map fst (entries2 n'))).
      { apply Ke. eapply key_in. apply entries2_in. exists ((j, s) :: ms). split; [exact Hms|left; reflexivity]. }
      apply in_key in Hin. destruct Hin as [s' Hin]. apply entries2_in in Hin.
      destruct Hin as [ms' [H1 _]]. eapply key_in; eauto.
    + pose proof (E' _ _ Hms) as Hne. destruct ms as [|[j s] ms]; [congruence|].
      assert (Hin : In (k, j) (map fst (entries2 n))).
      { apply Ke. eapply key_in. apply entries2_in. exists ((j, s) :: ms). split; [exact Hms|left; reflexivity]. }
      apply in_key in Hin. destruct Hin as [s' Hin]. apply entries2_in in Hin.
      destruct Hin as [ms' [H1 _]]. eapply key_in; eauto.
  - intros k ms ms' Hms Hms'. split; [eapply entries2_nodup; eauto|]. split.
    + intros j. split; intros Hj; apply in_key in Hj; destruct Hj as [s Hs].
      * assert (Hin : In (k, j) (map fst (entries2 n'))).
        { apply Ke. eapply key_in. apply entries2_in. eauto. }
        apply in_key in Hin. destruct Hin as [s' Hin]. apply entries2_in in Hin.
        destruct Hin as [ms2 [H1 H2]]. rewrite (nodup_fun _ _ k ms2 ms' n') in H2 by assumption.
        eapply key_in; eauto.
      * assert (Hin : In (k, j) (map fst (entries2 n))).
        { apply Ke. eapply key_in. apply entries2_in. eauto. }
        apply in_key in Hin. destruct Hin as [s' Hin]. apply entries2_in in Hin.
        destruct Hin as [ms2 [H1 H2]]. rewrite (nodup_fun _ _ k ms2 ms n) in H2 by assumption.
        eapply key_in; eauto.
    + intros j s s' Hs Hs'. apply (Ve (k, j)); apply entries2_in; eauto.
Qed.

Definition determined (v : gv) := forall v' x x', reorder v v' -> value_of v x -> value_of v' x' ->
  same_value x x'.
Definition determined_fields (b : gv) := match b with
  | GMap m => forall k v, In (k, v) m -> determined v
  | _ => True
  end.

Lemma struct_same : forall a b a' b' x x', determined_fields b -> reorder a a' -> reorder b b' ->
  struct_of a b x -> struct_of a' b' x' -> same_struct x x'.
Proof.
  intros a b a' b' x x' Hd Ha Hb H H'.
  inversion H as [name|name m fs Hm]; subst.
  - inversion Ha; inversion Hb; subst. inversion H'; subst. constructor.
  - inversion Ha; subst. inversion Hb as [| | | | | | | | | | | |? m' Hr| |]; subst.
    inversion H' as [|? ? fs' Hm']; subst. constructor.
    eapply map_rel_compose; eauto. intros k u b c d Hin _ H1 H2 H3. eapply (Hd k u); eauto.
Qed.

Theorem value_same : forall v v' x x', reorder v v' -> value_of v x -> value_of v' x' ->
  same_value x x'.
Proof.
  assert (Hmain : forall v, determined v /\ determined_fields v).
  2:{ intros v; apply Hmain. }
  intros v; induction v as [s|a b IHa IHb|l|l IH|m|m IH|m|m IH|s|l|m|m|m IH| |] using gv_ind';
    (split; [unfold determined; intros v' x x' Hr H H'; inversion Hr; subst;
    inversion H; subst; inversion H'; subst; try apply sv_refl|simpl; auto]).
  - constructor. eapply struct_same; [exact (proj2 IHb)| | |eassumption|eassumption]; assumption.
  - constructor.
    match goal with
    | [ Hl : Forall2 _ l ?l', Hx : Forall2 _ l ?xs, Hx' : Forall2 _ ?l' ?xs0 |- Forall2 _ ?xs ?xs0 ] =>
      clear H H' Hr; revert xs Hx xs0 Hx'; rename Hl into Hll
    end.
    induction Hll as [|[a b] [a' b'] l l' [Ha Hb] Hl IHl]; intros xs H xs' H';
      inversion H as [|? x ? ys Hx Hy]; inversion H' as [|? x' ? ys' Hx' Hy']; subst; constructor.
    + simpl in *. eapply struct_same; [exact (proj2 (proj2 (IH a b (or_introl eq_refl))))| | |eassumption|eassumption]; assumption.
    + apply IHl; auto. intros a1 b1 Hin; apply (IH a1 b1); right; exact Hin.
  - constructor. 
    match goal with [ Hx : map_rel _ m ?y, Hm : map_rel eq m ?m', Hx' : map_rel _ ?m' ?y' |- map_rel _ ?y ?y' ] =>
      refine (map_rel_compose _ _ _ _ _ _ _ _ _ _ _ _ _ Hx Hm Hx' _) end.
    simpl. intros k a b c d _ _ Ex1 Ex2 Ex3; subst. constructor.
  - constructor. 
    match goal with [ Hx : map_rel _ m ?y, Hm : map_rel _ m ?m', Hx' : map_rel _ ?m' ?y' |- map_rel _ ?y ?y' ] =>
      refine (map_rel_compose _ _ _ _ _ _ _ _ _ _ _ _ _ Hx Hm Hx' _) end.
    intros k [a b] s [c d] s' Hin _ Hs [Hc Hd] Hs'. simpl in *.
    eapply struct_same; [exact (proj2 (proj2 (IH k a b Hin)))| | |eassumption|eassumption]; assumption.
  - match goal with [ Hx : map2_rel _ m ?y, Hx' : map2_rel _ ?m' ?y', Hm : map_rel _ m ?m' |- _ ] =>
      destruct Hx as [N1 [E1 M1]]; destruct Hx' as [N2 [E2 M2]] end.
    constructor. apply entries2_rel; auto; [apply M1|].
    
    match goal with [ Hx : map_rel _ m ?y, Hm : map_rel eq m ?m', Hx' : map_rel _ ?m' ?y' |- map_rel _ ?y ?y' ] =>
      refine (map_rel_compose _ _ _ _ _ _ _ _ _ _ _ _ _ Hx Hm Hx' _) end.
    simpl. intros k a b c d _ _ Ex1 Ex2 Ex3; subst. constructor.
  - match goal with [ Hx : map2_rel _ m ?y, Hx' : map2_rel _ ?m' ?y', Hm : map_rel _ m ?m' |- _ ] =>
      destruct Hx as [N1 [E1 M1]]; destruct Hx' as [N2 [E2 M2]] end.
    constructor. apply entries2_rel; auto; [apply M1|].
    
    match goal with [ Hx : map_rel _ m ?y, Hm : map_rel _ m ?m', Hx' : map_rel _ ?m' ?y' |- map_rel _ ?y ?y' ] =>
      refine (map_rel_compose _ _ _ _ _ _ _ _ _ _ _ _ _ Hx Hm Hx' _) end.
    intros k [a b] s [c d] s' Hin _ Hs [Hc Hd] Hs'. simpl in *.
    eapply struct_same; [exact (proj2 (proj2 (IH k a b Hin)))| | |eassumption|eassumption]; assumption.
  - intros k v Hin. apply (IH k v Hin).
Qed.

(* Reordering preserves the side conditions and well-formedness. *)

Lemma forall2_in_r : forall A B (R : A -> B -> Prop) l l' b, Forall2 R l l' -> In b l' ->
  exists a, In a l /\ R a b.
Proof.
  intros A B R l l' b H; induction H as [|x y l l' HR H IH]; intros Hin; [destruct Hin|].
  destruct Hin as [<-|Hin]; [exists x; simpl; auto|]. destruct (IH Hin) as [a [H1 H2]]. exists a; simpl; auto.
Qed.

Lemma map_rel_in_r : forall K A B (R : A -> B -> Prop) (m : list (K * A)) n k b, map_rel R m n -> In (k, b) n ->
  exists a, In (k, a) m /\ R a b.
Proof.
  intros K A B R m n k b [_ [Hk Hv]] Hin. destruct (in_key _ _ k m) as [a Ha].
  - apply Hk. eapply key_in; eauto.
  - exists a; split; [exact Ha|]. eapply Hv; eauto.
Qed.

Lemma reorder_sub : forall u' v', sub u' v' -> forall v, reorder v v' -> exists u, sub u v /\ reorder u u'.
Proof.
  intros u' v' H; induction H as [v'|u w a b Hs IH E|u w a b l Hs IH Hin E|u w k a b m Hs IH Hin E
    |u w k a b m Hs IH Hin E|u w k m Hs IH Hin]; intros v0 Hr.
  - exists v0; split; [constructor|exact Hr].
  - inversion Hr as [|a0 b0 ? ? Ha Hb| | | | | | | | | | | | |]; subst.
    destruct E as [->| ->]; [destruct (IH a0 Ha) as [u0 [H1 H2]]|destruct (IH b0 Hb) as [u0 [H1 H2]]];
      exists u0; split; auto; eapply sub_pair; eauto.
  - inversion Hr as [| | |l0 ? Hl| | | | | | | | | | |]; subst.
    destruct (forall2_in_r _ _ _ _ _ _ Hl Hin) as [[a0 b0] [Hin0 [Ha Hb]]]; simpl in *.
    destruct E as [->| ->]; [destruct (IH a0 Ha) as [u0 [H1 H2]]|destruct (IH b0 Hb) as [u0 [H1 H2]]];
      exists u0; split; auto; eapply sub_pairs; eauto.
  - inversion Hr as [| | | | |m0 ? Hm| | | | | | | | |]; subst.
    destruct (map_rel_in_r _ _ _ _ _ _ _ _ Hm Hin) as [[a0 b0] [Hin0 [Ha Hb]]]; simpl in *.
    destruct E as [->| ->]; [destruct (IH a0 Ha) as [u0 [H1 H2]]|destruct (IH b0 Hb) as [u0 [H1 H2]]];
      exists u0; split; auto; eapply sub_mappair; eauto.
  - inversion Hr as [| | | | | | |m0 ? Hm| | | | | | |]; subst.
    destruct (map_rel_in_r _ _ _ _ _ _ _ _ Hm Hin) as [[a0 b0] [Hin0 [Ha Hb]]]; simpl in *.
    destruct E as [->| ->]; [destruct (IH a0 Ha) as [u0 [H1 H2]]|destruct (IH b0 Hb) as [u0 [H1 H2]]];
      exists u0; split; auto; eapply sub_map2pair; eauto.
  - inversion Hr as [| | | | | | | | | | | |m0 ? Hm| |]; subst.
    destruct (map_rel_in_r _ _ _ _ _ _ _ _ Hm Hin) as [a0 [Hin0 Ha]].
    destruct (IH a0 Ha) as [u0 [H1 H2]]. exists u0; split; auto. eapply sub_map; eauto.
Qed.

Lemma go_reorder : forall v v', reorder v v' -> is_go_value v'.
Proof.
  intros v v' Hr u' Hu'. destruct (reorder_sub _ _ Hu' _ Hr) as [u [_ H]].
  inversion H as [| | | |m m' [N _]|m m' [N _]|m m' [N _]|m m' [N _]| | | | |m m' [N _]| |]; subst; auto.
Qed.

Lemma first_keys_perm : forall A B (R : A -> B -> Prop) (m : list ((string * string) * A)) m',
  NoDup (map fst m) -> map_rel R m m' -> NoDup (map (fun e => fst (fst e)) m) ->
  NoDup (map (fun e => fst (fst e)) m').
Proof.
  intros A B R m m' Hm [N [K _]] Hd.
  assert (Hp : Permutation (map fst m) (map fst m')) by (apply NoDup_Permutation; auto).
  rewrite <- (map_map fst fst). rewrite <- (map_map fst fst) in Hd.
  apply (Permutation_NoDup (Permutation_map fst Hp)). exact Hd.
Qed.

Lemma fkd_reorder : forall v v', is_go_value v -> reorder v v' -> first_keys_distinct v ->
  first_keys_distinct v'.
Proof.
  intros v v' Hgo Hr Hf u' Hu'. destruct (reorder_sub _ _ Hu' _ Hr) as [u [Hu H]].
  specialize (Hf u Hu). specialize (Hgo u Hu).
  inversion H; subst; auto; eapply first_keys_perm; eauto.
Qed.

Lemma wf_reorder : forall v, (forall v', reorder v v' -> wf_value v -> wf_value v') /\
  (match v with GMap m => forall k u, In (k, u) m -> forall u', reorder u u' -> wf_value u -> wf_value u' | _ => True end).
Proof.
  assert (Hs : forall a b a' b',
    (match b with GMap m => forall k u, In (k, u) m -> forall u', reorder u u' -> wf_value u -> wf_value u' | _ => True end) ->
    reorder a a' -> reorder b b' -> wf_struct a b -> wf_struct a' b').
  { intros a b a' b' Hb Ra Rb W. inversion W as [name|name m Hm]; subst; inversion Ra; subst.
    - inversion Rb; subst. constructor.
    - inversion Rb as [| | | | | | | | | | | |? m' Hr| |]; subst. constructor. intros k v' Hin.
      destruct (map_rel_in_r _ _ _ _ _ _ _ _ Hr Hin) as [v [Hv Hvr]].
      destruct (Hm k v Hv) as [H1 H2]. split; [exact H1|]. eapply Hb; eauto. }
  intros v; induction v as [s|a b IHa IHb|l|l IH|m|m IH|m|m IH|s|l|m|m|m IH| |] using gv_ind';
    (split; [intros v' Hr W; try (inversion Hr; subst; first [constructor; fail | inversion W; fail])|simpl; auto]).
  - inversion Hr; subst. constructor. inversion W; subst. eapply Hs; eauto. apply IHb.
  - inversion Hr as [| | |l0 l1 Hl| | | | | | | | | | |]; subst. constructor. intros a' b' Hin.
    destruct (forall2_in_r _ _ _ _ _ _ Hl Hin) as [[a b] [Hin0 [Ha Hb]]]; simpl in *.
    inversion W as [| | |? H' | | | | | | | |]; subst. eapply Hs; eauto. apply (IH a b Hin0).
  - inversion Hr as [| | | | |m0 m1 Hm| | | | | | | | |]; subst. constructor. intros k a' b' Hin.
    destruct (map_rel_in_r _ _ _ _ _ _ _ _ Hm Hin) as [[a b] [Hin0 [Ha Hb]]]; simpl in *.
    inversion W as [| | | | |? H' | | | | | |]; subst. eapply Hs; eauto. apply (IH k a b Hin0).
  - inversion Hr as [| | | | | | |m0 m1 Hm| | | | | | |]; subst. constructor. intros k a' b' Hin.
    destruct (map_rel_in_r _ _ _ _ _ _ _ _ Hm Hin) as [[a b] [Hin0 [Ha Hb]]]; simpl in *.
    inversion W as [| | | | | | |? H' | | | |]; subst. eapply Hs; eauto. apply (IH k a b Hin0).
  - intros k u Hin. apply (IH k u Hin).
Qed.

Theorem order_independent : forall v v' x, is_go_value v -> first_keys_distinct v -> reorder v v' ->
  new_value v = Ok x -> exists x', new_value v' = Ok x' /\ same_value x x'.
Proof.
  intros v v' x Hgo Hf Hr H.
  assert (W : wf_value v') by (eapply wf_reorder; eauto; apply value_succeeds; eauto).
  apply value_succeeds in W. destruct W as [x' H']. exists x'; split; [exact H'|].
  eapply value_same; eauto; apply value_sound; auto.
  - eapply go_reorder; eauto.
  - eapply fkd_reorder; eauto.
Qed.

Theorem success_order_independent : forall v v', reorder v v' ->
  (exists x, new_value v = Ok x) -> exists x', new_value v' = Ok x'.
Proof.
  intros v v' Hr H. apply value_succeeds. eapply wf_reorder; eauto. apply value_succeeds; exact H.
Qed.

(* --------------------------------------------------------------- no panics *)

Lemma bind_no_panic : forall A B (r : result A) (g : A -> result B) msg,
  (forall m, r <> Panic m) -> (forall a m, g a <> Panic m) -> bindr r g <> Panic msg.
Proof. intros A B [a|e|p] g msg H1 H2; simpl; [apply H2|discriminate|exfalso; eapply H1; eauto]. Qed.

Lemma no_panic_loops : forall f a b,
  (match b with GMap m => forall k v, In (k, v) m -> forall p, f v <> Panic p | _ => True end) ->
  forall p, new_single_struct f a b <> Panic p.
Proof.
  intros f a b Hb p. destruct a; simpl; try discriminate. destruct b; simpl; try discriminate.
  apply bind_no_panic; [|discriminate]. generalize (@nil (string * svalue)).
  induction m as [|[k v] m IH]; intros acc msg; simpl; [discriminate|].
  destruct (valid_utf8 k); [|discriminate].
  apply bind_no_panic; [apply (Hb k v); left; reflexivity|].
  intros w. apply IH. intros k' v' Hin; apply (Hb k'); right; exact Hin.
Qed.

Theorem value_no_panic : forall v p, new_value v <> Panic p.
Proof.
  assert (Hmain : forall v, (forall p, new_value v <> Panic p) /\
    (match v with GMap m => forall k u, In (k, u) m -> forall p, new_value u <> Panic p | _ => True end)).
  2:{ intros v; apply Hmain. }
  intros v; induction v as [s|a b IHa IHb|l|l IH|m|m IH|m|m IH|s|l|m|m|m IH| |] using gv_ind';
    (split; [intros p; cbn [new_value]; try (apply bind_no_panic; [|discriminate])|simpl; auto]);
    try discriminate.
  - intros m. apply no_panic_loops. apply IHb.
  - induction l as [|s l IHl]; simpl; [discriminate|]. intros m.
    apply bind_no_panic; [exact IHl|discriminate].
  - induction l as [|[a b] l IHl]; simpl; [discriminate|]. intros m.
    apply bind_no_panic; [apply no_panic_loops; apply (IH a b); left; reflexivity|].
    intros s m0. apply bind_no_panic; [|discriminate]. apply IHl. intros; apply IH; right; assumption.
  - unfold conv_map. generalize (@nil (string * sstruct)).
    induction m as [|[k s] m IHm]; simpl; intros acc; [discriminate|]. apply IHm.
  - generalize (@nil (string * sstruct)).
    induction m as [|[k [a b]] m IHm]; simpl; intros acc p'; [discriminate|].
    apply bind_no_panic; [apply no_panic_loops; apply (IH k a b); left; reflexivity|].
    intros s. apply IHm. intros k' a' b' Hin; apply (IH k'); right; exact Hin.
  - unfold conv_map. generalize (@nil (string * list (string * sstruct))).
    induction m as [|[[k j] s] m IHm]; simpl; intros acc; [discriminate|]. apply IHm.
  - generalize (@nil (string * list (string * sstruct))).
    induction m as [|[[k j] [a b]] m IHm]; cbn [new_map2_struct]; intros acc p'; [discriminate|].
    apply bind_no_panic; [apply no_panic_loops; apply (IH (k, j) a b); left; reflexivity|].
    intros s. apply IHm. intros k' a' b' Hin; apply (IH k'); right; exact Hin.
  - intros k v Hin. apply (IH k v Hin).
Qed.

(* ---------------------------------------------------------------- shorthand *)

(* The placeholder passed in the string cases is never called. *)
Lemma shorthand_rec : forall f s, new_single_struct f (GStr s) GNil = Ok (SStruct s None).
Proof. reflexivity. Qed.

Lemma shorthand_list : forall f g l, new_list_struct f (map pair_str l) = new_list_struct g (map pair_str l).
Proof. intros f g l; induction l as [|s l IH]; simpl; [reflexivity|rewrite IH; reflexivity]. Qed.

Lemma shorthand_map : forall f g l x, new_map_struct f (conv_map l) x = new_map_struct g (conv_map l) x.
Proof. intros f g l; induction l as [|[k s] l IH]; intros x; simpl; [reflexivity|apply IH]. Qed.

Lemma shorthand_map2 : forall f g l x, new_map2_struct f (conv_map l) x = new_map2_struct g (conv_map l) x.
Proof. intros f g l; induction l as [|[[k j] s] l IH]; intros x; simpl; [reflexivity|apply IH]. Qed.

Definition expand_second (b : gv) : gv := match b with
  | GMap m => GMap (map (fun kv => (fst kv, expand (snd kv))) m)
  | _ => b
  end.

Lemma single_expand : forall a b,
  (match b with GMap m => forall k u, In (k, u) m -> new_value (expand u) = new_value u | _ => True end) ->
  new_single_struct new_value a (expand_second b) = new_single_struct new_value a b.
Proof.
  intros a b Hb. destruct a; simpl; try reflexivity. destruct b; simpl; try reflexivity.
  generalize (@nil (string * svalue)) as acc.
  assert (E : forall acc, fields_loop new_value (map (fun kv => (fst kv, expand (snd kv))) m) acc
    = fields_loop new_value m acc).
  { induction m as [|[k v] m IH]; intros acc; simpl; [reflexivity|].
    destruct (valid_utf8 k); [|reflexivity]. rewrite (Hb k v) by (left; reflexivity).
    destruct (new_value v); simpl; auto. apply IH. intros k' u Hin; apply (Hb k'); right; exact Hin. }
  intros acc. rewrite E. reflexivity.
Qed.

Theorem expand_same : forall v, new_value (expand v) = new_value v.
Proof.
  assert (Hmain : forall v, new_value (expand v) = new_value v /\
    (match v with GMap m => forall k u, In (k, u) m -> new_value (expand u) = new_value u | _ => True end)).
  2:{ intros v; apply Hmain. }
  intros v; induction v as [s|a b IHa IHb|l|l IH|m|m IH|m|m IH|s|l|m|m|m IH| |] using gv_ind';
    (split; [|simpl; auto]); try reflexivity.
  - change (expand (GPair a b)) with (GPair a (expand_second b)). cbn [new_value].
    rewrite single_expand by apply IHb. reflexivity.
  - change (expand (GStrs l)) with (GPairs (map pair_str l)). cbn [new_value].
    rewrite (shorthand_list new_value no_value). reflexivity.
  - change (expand (GPairs l)) with (GPairs (map (fun p => (fst p, expand_second (snd p))) l)). cbn [new_value].
    f_equal. induction l as [|[a b] l IHl]; cbn [map new_list_struct fst snd]; [reflexivity|].
    rewrite single_expand by (apply (IH a b); left; reflexivity). rewrite IHl; [reflexivity|].
    intros a' b' Hin; apply (IH a'); right; exact Hin.
  - change (expand (GMapStr m)) with (GMapPair (conv_map m)). cbn [new_value].
    rewrite (shorthand_map new_value no_value). reflexivity.
  - change (expand (GMapPair m)) with
      (GMapPair (map (fun kp => (fst kp, (fst (snd kp), expand_second (snd (snd kp))))) m)). cbn [new_value].
    f_equal. generalize (@nil (string * sstruct)).
    induction m as [|[k [a b]] m IHm]; intros acc; cbn [map new_map_struct fst snd]; [reflexivity|].
    rewrite single_expand by (apply (IH k a b); left; reflexivity).
    destruct (new_single_struct new_value a b); simpl; auto.
    apply IHm. intros k' a' b' Hin; apply (IH k'); right; exact Hin.
  - change (expand (GMap2Str m)) with (GMap2Pair (conv_map m)). cbn [new_value].
    rewrite (shorthand_map2 new_value no_value). reflexivity.
  - change (expand (GMap2Pair m)) with
      (GMap2Pair (map (fun kp => (fst kp, (fst (snd kp), expand_second (snd (snd kp))))) m)). cbn [new_value].
    f_equal. generalize (@nil (string * list (string * sstruct))).
    induction m as [|[[k j] [a b]] m IHm]; intros acc; cbn [map new_map2_struct fst snd]; [reflexivity|].
    rewrite single_expand by (apply (IH (k, j) a b); left; reflexivity).
    destruct (new_single_struct new_value a b); cbn [bindr]; auto.
    apply IHm. intros k' a' b' Hin; apply (IH k'); right; exact Hin.
  - intros k u Hin; apply (IH k u Hin).
Qed.

(* ------------------------------------------------------------ two-level maps *)

(* What newMap2Struct keeps in general: for every first key, exactly one of its entries. *)
Theorem map2_keeps_last : forall m x,
  new_value (GMap2Pair m) = Ok (VMap2 x) ->
  NoDup (map fst x) /\
  (forall k, In k (map fst x) <-> exists j p, In ((k, j), p) m) /\
  (forall k ms, In (k, ms) x -> exists j p s m1 m2, ms = [(j, s)] /\ m = m1 ++ ((k, j), p) :: m2 /\
     new_single_struct new_value (fst p) (snd p) = Ok s /\ (forall j' p', ~ In ((k, j'), p') m2)).
Proof.
  intros m x H. cbn [new_value] in H. apply bindr_Ok in H. destruct H as [y [Hy H]]. inversion H; subst y.
  clear H.
  assert (G : forall m acc, NoDup (map fst acc) -> new_map2_struct new_value m acc = Ok x ->
    NoDup (map fst x) /\
    (forall k, In k (map fst x) <-> In k (map fst acc) \/ exists j p, In ((k, j), p) m) /\
    (forall k ms, In (k, ms) x ->
      (In (k, ms) acc /\ forall j' p', ~ In ((k, j'), p') m) \/
      exists j p s m1 m2, ms = [(j, s)] /\ m = m1 ++ ((k, j), p) :: m2 /\
     new_single_struct new_value (fst p) (snd p) = Ok s /\ (forall j' p', ~ In ((k, j'), p') m2))).
  { clear m Hy. induction m as [|[[k0 j0] [a b]] m IH]; cbn [new_map2_struct]; intros acc Hnd H.
    - inversion H; subst. split; [exact Hnd|]. split.
      + intros k; split; [auto|intros [Hk|[j [p []]]]; exact Hk].
      + intros k ms Hin. left; split; [exact Hin|intros j' p' []].
    - apply bindr_Ok in H. destruct H as [s [Hs H]].
      apply IH in H; [|apply (NoDup_keys_insert k0); exact Hnd].
      destruct H as [H1 [H2 H3]]. split; [exact H1|]. split.
      + intros k. rewrite H2. split.
        * intros [Hk|[j [p Hp]]]; [|right; exists j, p; right; exact Hp].
          destruct (in_dec string_dec k0 (map fst acc)) as [Hi|Hi].
          -- left. pose proof (keys_insert_in k0 (insert j0 s []) acc Hi) as E. unfold keys in E. rewrite E in Hk. exact Hk.
          -- rewrite (insert_not_in k0) in Hk by exact Hi. rewrite map_app, in_app_iff in Hk.
             destruct Hk as [Hk|[Hk|[]]]; [auto|]. simpl in Hk; subst. right. exists j0, (a, b); left; reflexivity.
        * intros [Hk|[j [p [E|Hp]]]].
          -- left. apply lookup_Some_key in Hk. destruct Hk as [v Hv].
             apply (lookup_Some_key k). rewrite lookup_insert. destruct (eq_dec k k0); eauto.
          -- inversion E; subst. left. apply (lookup_Some_key k). rewrite lookup_insert.
             destruct (eq_dec k k); [eauto|congruence].
          -- right; exists j, p; exact Hp.
      + intros k ms Hin. destruct (H3 k ms Hin) as [[Hacc Hno]|[j [p [s' [m1 [m2 [E1 [E2 [E3 E4]]]]]]]]].
        * apply (In_lookup k) in Hacc; [|apply (NoDup_keys_insert k0); exact Hnd].
          rewrite lookup_insert in Hacc. destruct (eq_dec k k0) as [->|Hn].
          -- right. inversion Hacc. exists j0, (a, b), s, [], m. simpl. auto.
          -- left. split; [apply lookup_In; exact Hacc|]. intros j' p' [E|Hp]; [inversion E; congruence|].
             eapply Hno; eauto.
        * right. exists j, p, s', (((k0, j0), (a, b)) :: m1), m2. subst. auto. }
  destruct (G m [] (NoDup_nil _) Hy) as [G1 [G2 G3]]. split; [exact G1|]. split.
  - intros k. rewrite G2. split; [intros [[]|Hk]; exact Hk|auto].
  - intros k ms Hin. destruct (G3 k ms Hin) as [[[] _]|Hk]; exact Hk.
Qed.
