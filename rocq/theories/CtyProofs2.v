(* Proofs about the value conversions. *)

From Verif Require Import Base CtyModel CtySpec CtyProofs.
From Coq Require Import ZifyBool ZifyNat ZifyN Lia.
Open Scope Z_scope.

Section NativeInd.
Variable P : native -> Prop.
Hypothesis H1 : P NNil.
Hypothesis H2 : forall s, P (NStr s).
Hypothesis H3 : forall b, P (NBool b).
Hypothesis H4 : forall z, P (NInt z).
Hypothesis H5 : forall z, P (NInt64 z).
Hypothesis H6 : forall d, P (NF32 d).
Hypothesis H7 : P NInf32.
Hypothesis H8 : forall d, P (NF64 d).
Hypothesis H9 : P NNilMap.
Hypothesis H10 : forall m, (forall k v, In (k, v) m -> P v) -> P (NMap m).
Hypothesis H11 : P NNilList.
Hypothesis H12 : forall l, (forall v, In v l -> P v) -> P (NList l).
Lemma native_ind' : forall v, P v.
Proof.
  fix IH 1.
  intros [|s|b|z|z|d| |d| |m| |l];
    [exact H1|exact (H2 s)|exact (H3 b)|exact (H4 z)|exact (H5 z)|exact (H6 d)|exact H7
    |exact (H8 d)|exact H9| |exact H11|].
  - apply H10. induction m as [|[k0 v0] m IHm]; intros k v I; [destruct I|].
    destruct I as [E|I]; [|exact (IHm k v I)].
    exact (eq_ind v0 P (IH v0) v (f_equal snd E)).
  - apply H12. induction l as [|v0 l IHl]; intros v I; [destruct I|].
    destruct I as [E|I]; [|exact (IHl v I)]. exact (eq_ind v0 P (IH v0) v E).
Qed.
End NativeInd.

Section CvalInd.
Variable P : cval -> Prop.
Hypothesis H1 : P CNull.
Hypothesis H2 : forall s, P (CStr s).
Hypothesis H3 : forall b, P (CBool b).
Hypothesis H4 : forall d, P (CNum d).
Hypothesis H5 : P CInf.
Hypothesis H6 : forall m, (forall k v, In (k, v) m -> P v) -> P (CObj m).
Hypothesis H7 : forall l, (forall v, In v l -> P v) -> P (CTup l).
Lemma cval_ind' : forall v, P v.
Proof.
  fix IH 1.
  intros [|s|b|d| |m|l]; [exact H1|exact (H2 s)|exact (H3 b)|exact (H4 d)|exact H5| |].
  - apply H6. induction m as [|[k0 v0] m IHm]; intros k v I; [destruct I|].
    destruct I as [E|I]; [|exact (IHm k v I)].
    exact (eq_ind v0 P (IH v0) v (f_equal snd E)).
  - apply H7. induction l as [|v0 l IHl]; intros v I; [destruct I|].
    destruct I as [E|I]; [|exact (IHl v I)]. exact (eq_ind v0 P (IH v0) v E).
Qed.
End CvalInd.

(* The two loops of CtyToNative. *)
Fixpoint obj_loop (m : list (string * cval)) : result (list (string * native)) :=
  match m with
  | [] => Ok []
  | (k, v) :: m' =>
    do x <- cty_to_native v;
    do r <- obj_loop m';
    Ok (match x with NNil => r | _ => (k, x) :: r end)
  end.
Fixpoint tup_loop (l : list cval) : result (list native) :=
  match l with
  | [] => Ok []
  | v :: l' =>
    do x <- cty_to_native v;
    do r <- tup_loop l';
    Ok (match x with NNil => r | _ => x :: r end)
  end.
Lemma to_native_obj : forall m,
  cty_to_native (CObj m) =
  do u <- obj_loop m; Ok (match u with [] => NNilMap | _ => NMap u end).
Proof.
  intros m. unfold cty_to_native at 1. fold cty_to_native.
  match goal with |- bindr ?a _ = bindr ?b _ => assert (E : a = b); [|rewrite E; reflexivity] end.
  induction m as [|[k v] m IH]; [reflexivity|]. cbn [obj_loop]. rewrite <- IH. reflexivity.
Qed.
Lemma to_native_tup : forall l,
  cty_to_native (CTup l) =
  do u <- tup_loop l; Ok (match u with [] => NNilList | _ => NList u end).
Proof.
  intros l. unfold cty_to_native at 1. fold cty_to_native.
  match goal with |- bindr ?a _ = bindr ?b _ => assert (E : a = b); [|rewrite E; reflexivity] end.
  induction l as [|v l IH]; [reflexivity|]. cbn [tup_loop]. rewrite <- IH. reflexivity.
Qed.

(* ----- numbers ----- *)

Lemma representable_mono : forall d, representable float32 d -> representable float64 d.
Proof.
  intros d (n & q & Hn & Hq & He & Hb). exists n, q.
  unfold float32, float64 in *. cbn [prec last_place bound] in *.
  assert (P := pow2_pos (den d)). fold (pow2 (den d)) in *.
  repeat split; [|lia|exact He|].
  - eapply Z.lt_trans; [exact Hn|reflexivity].
  - eapply Z.lt_trans; [exact Hb|]. apply Z.mul_lt_mono_pos_r; [exact P|]. reflexivity.
Qed.

Lemma number_not_nil : forall d v, cty_number_to_native d = Ok v -> v <> NNil.
Proof.
  intros d v H ->. unfold cty_number_to_native in H.
  destruct (exact_or_above _) in H.
  - destruct (from_int d); simpl in H; try discriminate. destruct (_ || _) in H; discriminate.
  - destruct (exact_or_above _) in H.
    + destruct (from_int d); simpl in H; discriminate.
    + destruct (exact_or_above _) in H.
      * destruct (from_float32 d) as [[]| |]; simpl in H; discriminate.
      * destruct (from_float64 d); simpl in H; discriminate.
Qed.

Lemma fits_dec : forall d, fits d \/
  (whole d /\ forall z, is_whole d z -> ~ in_int64 z) \/ (num d < 0 /\ ~ whole d).
Proof.
  intros d. assert (P := pow2_pos (den d)).
  destruct (Z.eq_dec (num d mod pow2 (den d)) 0) as [E|E].
  - assert (W : is_whole d (num d / pow2 (den d))).
    { unfold is_whole. fold (pow2 (den d)).
      pose proof (Z.div_mod (num d) (pow2 (den d)) ltac:(lia)). lia. }
    set (z := num d / pow2 (den d)) in *.
    destruct (Z_le_dec (- 2 ^ 63) z) as [A|A]; [destruct (Z_lt_dec z (2 ^ 63)) as [B|B]|].
    + left. left. exists z. split; [exact W|split; assumption].
    + right. left. split; [exists z; exact W|]. intros z' W' I.
      assert (z' = z); [|unfold in_int64 in I; subst; lia].
      unfold is_whole in W, W'. fold (pow2 (den d)) in W, W'. rewrite W in W'.
      apply Z.mul_reg_r in W'; lia.
    + right. left. split; [exists z; exact W|]. intros z' W' I.
      assert (z' = z); [|unfold in_int64 in I; subst; lia].
      unfold is_whole in W, W'. fold (pow2 (den d)) in W, W'. rewrite W in W'.
      apply Z.mul_reg_r in W'; lia.
  - assert (N : ~ whole d).
    { intros (z & W). apply E. unfold is_whole in W. fold (pow2 (den d)) in W. rewrite W.
      apply Z.mod_mul. lia. }
    destruct (Z_lt_dec 0 (num d)) as [S|S]; [left; right; auto|].
    right. right. split; [|exact N].
    destruct (Z.eq_dec (num d) 0) as [Z0|]; [|lia]. exfalso. apply N. exists 0.
    unfold is_whole. lia.
Qed.

Theorem number_fits : forall d, representable float64 d -> fits d ->
  exists v, cty_number_to_native d = Ok v /\ number_native d v.
Proof.
  intros d R [(z & W & I)|(W & Pd)].
  - destruct (number_int d z W I) as (v & E & N). exists v. split; [exact E|].
    exact (nn_int d z v W I N).
  - destruct (number_frac d Pd W R) as (x & Ex & Hden & Ec). rewrite Ec.
    eexists. split; [reflexivity|].
    destruct (num d <=? num x) eqn:C.
    + apply nn_f32; try assumption.
      * exact (round_to_representable float32 d x good32 Ex).
      * exact (round_to_nearest float32 d x good32 Ex).
      * unfold le_num. rewrite Hden. assert (P := pow2_pos (den d)).
        apply Z.mul_le_mono_nonneg_r; lia.
    + apply nn_f64; assumption.
Qed.

Theorem number_native_ok : forall d v, representable float64 d ->
  cty_number_to_native d = Ok v -> number_native d v.
Proof.
  intros d v R H. destruct (fits_dec d) as [F|F].
  - destruct (number_fits d R F) as (v' & E & N). congruence.
  - destruct (number_err d F) as (e & E). congruence.
Qed.

Lemma int_representable_conv : forall z v, cty_number_to_native (mkD z 0) = Ok v ->
  in_int64 z /\ native_int z v.
Proof.
  intros z v H. destruct (fits_dec (mkD z 0)) as [[(z' & W & I)|(W & _)]|F].
  - assert (z = z') as <-.
    { unfold is_whole in W. simpl num in W. simpl den in W. simpl Z.of_nat in W. lia. }
    destruct (number_int _ z W I) as (v' & E & N). split; [exact I|congruence].
  - exfalso. apply W. exists z. unfold is_whole. simpl. lia.
  - destruct (number_err _ F) as (e & E). congruence.
Qed.

(* ----- cty to native ----- *)

Lemma to_native_not_nil : forall c v, cty_to_native c = Ok v -> v = NNil -> c = CNull.
Proof.
  intros c v H E. destruct c; try reflexivity; subst v; exfalso.
  - discriminate.
  - discriminate.
  - exact (number_not_nil d _ H eq_refl).
  - discriminate.
  - rewrite to_native_obj in H. destruct (obj_loop m) as [[|]| |]; simpl in H; discriminate.
  - rewrite to_native_tup in H. destruct (tup_loop l) as [[|]| |]; simpl in H; discriminate.
Qed.

Lemma obj_loop_spec : forall m,
  (forall k v, In (k, v) m -> forall w, cty_to_native v = Ok w <-> converts v w) ->
  forall m', obj_loop m = Ok m' <->
    Forall2 (fun a b => fst a = fst b /\ converts (snd a) (snd b))
            (filter (fun kv => not_null (snd kv)) m) m'.
Proof.
  induction m as [|[k v] m IH]; intros Hv m'; cbn [obj_loop filter].
  - split; [intros [= <-]; constructor|intros F; inversion F; reflexivity].
  - assert (Hv' : forall k v, In (k, v) m -> forall w, cty_to_native v = Ok w <-> converts v w)
      by (intros; eapply Hv; right; eauto).
    specialize (IH Hv').
    assert (H0 := Hv k v (or_introl eq_refl)).
    cbn [snd]. destruct (not_null v) eqn:NN.
    + split.
      * intros H. destruct (cty_to_native v) as [x| |] eqn:Ex; try discriminate.
        cbn [bindr] in H. destruct (obj_loop m) as [r| |] eqn:Er; try discriminate.
        cbn [bindr] in H. injection H as <-.
        assert (Nx : x <> NNil).
        { intros X. rewrite (to_native_not_nil v x Ex X) in NN. discriminate. }
        replace (match x with NNil => r | _ => (k, x) :: r end) with ((k, x) :: r)
          by (destruct x; congruence).
        constructor; [|apply IH; reflexivity]. split; [reflexivity|]. apply H0. reflexivity.
      * intros F. inversion F as [|a b l1 l2 [Hk Hc] Ht Ea Eb]; subst.
        destruct b as [k' x]. cbn [fst snd] in *. subst k'.
        apply H0 in Hc. rewrite Hc. cbn [bindr]. apply IH in Ht. rewrite Ht. cbn [bindr].
        assert (Nx : x <> NNil).
        { intros X. rewrite (to_native_not_nil v x Hc X) in NN. discriminate. }
        destruct x; congruence.
    + destruct v; try discriminate NN. cbn [cty_to_native bindr].
      rewrite <- IH. destruct (obj_loop m); cbn [bindr]; split; congruence.
Qed.

Lemma tup_loop_spec : forall l,
  (forall v, In v l -> forall w, cty_to_native v = Ok w <-> converts v w) ->
  forall l', tup_loop l = Ok l' <-> Forall2 converts (filter not_null l) l'.
Proof.
  induction l as [|v l IH]; intros Hv m'; cbn [tup_loop filter].
  - split; [intros [= <-]; constructor|intros F; inversion F; reflexivity].
  - assert (Hv' : forall v, In v l -> forall w, cty_to_native v = Ok w <-> converts v w)
      by (intros; eapply Hv; right; eauto).
    specialize (IH Hv').
    assert (H0 := Hv v (or_introl eq_refl)).
    destruct (not_null v) eqn:NN.
    + split.
      * intros H. destruct (cty_to_native v) as [x| |] eqn:Ex; try discriminate.
        cbn [bindr] in H. destruct (tup_loop l) as [r| |] eqn:Er; try discriminate.
        cbn [bindr] in H. injection H as <-.
        assert (Nx : x <> NNil).
        { intros X. rewrite (to_native_not_nil v x Ex X) in NN. discriminate. }
        replace (match x with NNil => r | _ => x :: r end) with (x :: r)
          by (destruct x; congruence).
        constructor; [|apply IH; reflexivity]. apply H0. reflexivity.
      * intros F. inversion F as [|a b l1 l2 Hc Ht Ea Eb]; subst.
        apply H0 in Hc. rewrite Hc. cbn [bindr]. apply IH in Ht. rewrite Ht. cbn [bindr].
        assert (Nx : b <> NNil).
        { intros X. rewrite (to_native_not_nil v b Hc X) in NN. discriminate. }
        destruct b; congruence.
    + destruct v; try discriminate NN. cbn [cty_to_native bindr].
      rewrite <- IH. destruct (tup_loop l); cbn [bindr]; split; congruence.
Qed.

Theorem to_native_spec : forall c v, cty_to_native c = Ok v <-> converts c v.
Proof.
  induction c as [|s|b|d| |m IH|l IH] using cval_ind'; intros v.
  - split; [intros [= <-]; constructor|intros C; inversion C; reflexivity].
  - split; [intros [= <-]; constructor|intros C; inversion C; reflexivity].
  - split; [intros [= <-]; constructor|intros C; inversion C; reflexivity].
  - split; [intros H; constructor; exact H|intros C; inversion C; subst; assumption].
  - split; [intros [= <-]; constructor|intros C; inversion C; reflexivity].
  - rewrite to_native_obj. split.
    + intros H. destruct (obj_loop m) as [u| |] eqn:E; try discriminate. cbn [bindr] in H.
      injection H as <-. apply (obj_loop_spec m IH) in E. destruct u as [|a u].
      * apply cv_noobj. inversion E. reflexivity.
      * apply cv_obj; [discriminate|exact E].
    + intros C. inversion C as [| | | | |m0 Hf|m0 m' Hn Hf| |]; subst.
      * assert (E : obj_loop m = Ok []) by (apply (obj_loop_spec m IH); rewrite Hf; constructor).
        rewrite E. reflexivity.
      * apply (obj_loop_spec m IH) in Hf. rewrite Hf. cbn [bindr]. destruct m'; congruence.
  - rewrite to_native_tup. split.
    + intros H. destruct (tup_loop l) as [u| |] eqn:E; try discriminate. cbn [bindr] in H.
      injection H as <-. apply (tup_loop_spec l IH) in E. destruct u as [|a u].
      * apply cv_notup. inversion E. reflexivity.
      * apply cv_tup; [discriminate|exact E].
    + intros C. inversion C as [| | | | | | |l0 Hf|l0 l' Hn Hf]; subst.
      * assert (E : tup_loop l = Ok []) by (apply (tup_loop_spec l IH); rewrite Hf; constructor).
        rewrite E. reflexivity.
      * apply (tup_loop_spec l IH) in Hf. rewrite Hf. cbn [bindr]. destruct l'; congruence.
Qed.

(* ----- native to cty ----- *)

Section Norm.
Variable norm : string -> string.

Lemma fold_insert_nodup : forall (m h : list (string * cval)),
  NoDup (map fst (h ++ m)) ->
  fold_left (fun h kv => insert (fst kv) (snd kv) h) m h = h ++ m.
Proof.
  induction m as [|[k v] m IH]; intros h N; cbn [fold_left fst snd].
  - rewrite app_nil_r. reflexivity.
  - rewrite insert_not_in.
    + rewrite IH; rewrite <- app_assoc; [reflexivity|exact N].
    + rewrite map_app in N. cbn [map fst] in N. intros I. apply NoDup_remove_2 in N.
      apply N. apply in_or_app. left. exact I.
Qed.

Lemma to_cty_map : forall m, NoDup (map fst m) -> (forall k v, In (k, v) m -> norm k = k) ->
  native_to_cty norm (NMap m)
  = CObj (map (fun kv => (fst kv, native_to_cty norm (snd kv))) m).
Proof.
  intros m N Hk. cbn [native_to_cty].
  replace (map (fun kv => (norm (fst kv), native_to_cty norm (snd kv))) m)
    with (map (fun kv => (fst kv, native_to_cty norm (snd kv))) m).
  - rewrite fold_insert_nodup; [reflexivity|]. cbn [app]. rewrite map_map. exact N.
  - apply map_ext_in. intros [k v] I. cbn [fst snd]. rewrite (Hk k v I). reflexivity.
Qed.

Lemma to_cty_not_null : forall v, not_null (native_to_cty norm v) = true.
Proof. destruct v; reflexivity. Qed.

Lemma filter_all : forall A (p : A -> bool) l, (forall x, In x l -> p x = true) -> filter p l = l.
Proof.
  intros A p l H. induction l as [|a l IH]; [reflexivity|]. simpl.
  rewrite (H a (or_introl eq_refl)), IH; [reflexivity|]. intros x I. apply H. right. exact I.
Qed.

Lemma filter_obj : forall m : list (string * native),
  filter (fun kv => not_null (snd kv)) (map (fun kv => (fst kv, native_to_cty norm (snd kv))) m)
  = map (fun kv => (fst kv, native_to_cty norm (snd kv))) m.
Proof.
  intros m. apply filter_all. intros x I. apply in_map_iff in I. destruct I as ([k v] & <- & _).
  apply to_cty_not_null.
Qed.
Lemma filter_tup : forall l : list native,
  filter not_null (map (native_to_cty norm) l) = map (native_to_cty norm) l.
Proof.
  intros m. apply filter_all. intros x I. apply in_map_iff in I. destruct I as (v & <- & _).
  apply to_cty_not_null.
Qed.

Lemma Forall2_map_l : forall A B C (f : A -> B) (P : B -> C -> Prop) l l',
  Forall2 P (map f l) l' <-> Forall2 (fun a => P (f a)) l l'.
Proof.
  intros A B C f P l. induction l as [|a l IH]; intros l'; simpl.
  - split; intros H; inversion H; constructor.
  - split; intros H; inversion H; subst; constructor; auto; apply IH; assumption.
Qed.

Lemma Forall2_in_impl : forall A B (P Q : A -> B -> Prop) l l',
  (forall a b, In a l -> P a b -> Q a b) -> Forall2 P l l' -> Forall2 Q l l'.
Proof.
  intros A B P Q l l' H F. induction F; constructor.
  - apply H; [left; reflexivity|assumption].
  - apply IHF. intros a b I. apply H. right. exact I.
Qed.

Theorem round_trip_sound : forall v v', tidy norm v -> typed v ->
  cty_to_native (native_to_cty norm v) = Ok v' -> comes_back v v'.
Proof.
  induction v as [|s|b|z|z|d| |d| |m IH| |l IH] using native_ind'; intros v' T Ty H.
  - cbn in H. injection H as <-. constructor.
  - inversion T; subst. cbn in H. injection H as <-. rewrite H1. constructor.
  - cbn in H. injection H as <-. constructor.
  - cbn [native_to_cty cty_to_native] in H. apply int_representable_conv in H.
    destruct H. constructor; assumption.
  - cbn [native_to_cty cty_to_native] in H. apply int_representable_conv in H.
    destruct H. constructor; assumption.
  - cbn [native_to_cty cty_to_native] in H. inversion Ty; subst. constructor.
    apply number_native_ok; [apply representable_mono|]; assumption.
  - cbn in H. injection H as <-. constructor.
  - cbn [native_to_cty cty_to_native] in H. inversion Ty; subst. constructor.
    apply number_native_ok; assumption.
  - cbn in H. injection H as <-. constructor.
  - inversion T as [| | | | | | | | |m0 N Ht| |]; subst. inversion Ty as [| | | | | | | | |m0 Hty| |]; subst.
    rewrite to_cty_map in H; [|exact N|intros k v I; apply (Ht k v I)].
    apply to_native_spec in H. inversion H as [| | | | |m0 Hf|m0 m' Hn Hf| |]; subst.
    + rewrite filter_obj in Hf. destruct m; [|discriminate]. constructor.
    + rewrite filter_obj in Hf. apply (proj1 (Forall2_map_l _ _ _ _ _ _ _)) in Hf.
      constructor; [intros ->; inversion Hf; congruence|].
      eapply Forall2_in_impl; [|exact Hf]. intros [k v] [k' w] I [Ek C]. cbn [fst snd] in *.
      split; [exact Ek|]. apply (IH k v I); [apply (Ht k v I)|apply (Hty k v I)|].
      apply to_native_spec. exact C.
  - cbn in H. injection H as <-. constructor.
  - inversion T as [| | | | | | | | | | |l0 Ht]; subst. inversion Ty as [| | | | | | | | | | |l0 Hty]; subst.
    cbn [native_to_cty] in H. apply to_native_spec in H.
    inversion H as [| | | | | | |l0 Hf|l0 l' Hn Hf]; subst.
    + rewrite filter_tup in Hf. destruct l; [|discriminate]. constructor.
    + rewrite filter_tup in Hf. apply (proj1 (Forall2_map_l _ _ _ _ _ _ _)) in Hf.
      constructor; [intros ->; inversion Hf; congruence|].
      eapply Forall2_in_impl; [|exact Hf]. intros v w I C.
      apply (IH v I); [apply (Ht v I)|apply (Hty v I)|]. apply to_native_spec. exact C.
Qed.

Lemma obj_loop_total : forall m : list (string * native),
  (forall k v, In (k, v) m -> exists w, cty_to_native (native_to_cty norm v) = Ok w) ->
  exists u, obj_loop (map (fun kv => (fst kv, native_to_cty norm (snd kv))) m) = Ok u.
Proof.
  induction m as [|[k v] m IH]; intros H; [exists []; reflexivity|].
  cbn [map obj_loop fst snd].
  destruct (H k v (or_introl eq_refl)) as (w & ->). cbn [bindr].
  destruct IH as (u & ->); [intros k' v' I; apply (H k' v'); right; exact I|].
  eexists; reflexivity.
Qed.
Lemma tup_loop_total : forall l : list native,
  (forall v, In v l -> exists w, cty_to_native (native_to_cty norm v) = Ok w) ->
  exists u, tup_loop (map (native_to_cty norm) l) = Ok u.
Proof.
  induction l as [|v l IH]; intros H; [exists []; reflexivity|].
  cbn [map tup_loop].
  destruct (H v (or_introl eq_refl)) as (w & ->). cbn [bindr].
  destruct IH as (u & ->); [intros v' I; apply (H v'); right; exact I|].
  eexists; reflexivity.
Qed.

Theorem round_trip_total : forall v, tidy norm v -> typed v -> all_fit v ->
  exists v', cty_to_native (native_to_cty norm v) = Ok v'.
Proof.
  induction v as [|s|b|z|z|d| |d| |m IH| |l IH] using native_ind'; intros T Ty F;
    try (eexists; reflexivity).
  - inversion Ty; subst. destruct (number_int (mkD z 0) z) as (v & E & _);
      [unfold is_whole; simpl; lia|assumption|]. exists v. exact E.
  - inversion Ty; subst. destruct (number_int (mkD z 0) z) as (v & E & _);
      [unfold is_whole; simpl; lia|assumption|]. exists v. exact E.
  - inversion Ty; inversion F; subst.
    destruct (number_fits d) as (v & E & _); [apply representable_mono; assumption|assumption|].
    exists v. exact E.
  - inversion Ty; inversion F; subst.
    destruct (number_fits d) as (v & E & _); [assumption|assumption|]. exists v. exact E.
  - inversion T as [| | | | | | | | |m0 N Ht| |]; subst. inversion Ty as [| | | | | | | | |m0 Hty| |]; subst.
    inversion F as [| | | | | | | | |m0 Hf| |]; subst.
    rewrite to_cty_map; [|exact N|intros k v I; apply (Ht k v I)].
    rewrite to_native_obj.
    destruct (obj_loop_total m) as (u & ->);
      [intros k v I; apply (IH k v I); [apply (Ht k v I)|apply (Hty k v I)|apply (Hf k v I)]|].
    eexists; reflexivity.
  - inversion T as [| | | | | | | | | | |l0 Ht]; subst. inversion Ty as [| | | | | | | | | | |l0 Hty]; subst.
    inversion F as [| | | | | | | | | | |l0 Hf]; subst.
    cbn [native_to_cty]. rewrite to_native_tup.
    destruct (tup_loop_total l) as (u & ->);
      [intros v I; apply (IH v I); [apply (Ht v I)|apply (Hty v I)|apply (Hf v I)]|].
    eexists; reflexivity.
Qed.

Lemma native_int_unique : forall z v w, native_int z v -> native_int z w -> v = w.
Proof. unfold native_int. intros z v w [[-> A]|[-> A]] [[-> B]|[-> B]]; tauto. Qed.

Theorem round_trip_stable : forall v, stable norm v ->
  cty_to_native (native_to_cty norm v) = Ok v.
Proof.
  induction v as [|s|b|z|z|d| |d| |m IH| |l IH] using native_ind'; intros S;
    inversion S; subst; try reflexivity.
  - cbn. congruence.
  - destruct (number_int (mkD z 0) z) as (v & E & N);
      [unfold is_whole; simpl; lia|unfold in_int32, in_int64 in *; lia|].
    cbn [native_to_cty cty_to_native]. rewrite E. f_equal. unfold native_int in N. tauto.
  - destruct (number_int (mkD z 0) z) as (v & E & N);
      [unfold is_whole; simpl; lia|assumption|].
    cbn [native_to_cty cty_to_native]. rewrite E. f_equal. unfold native_int in N. tauto.
  - cbn [native_to_cty cty_to_native].
    destruct (number_frac d) as (x & Ex & _ & ->); [assumption|assumption|apply representable_mono; assumption|].
    rewrite (round_to_exact float32 d good32) in Ex by assumption. injection Ex as <-.
    rewrite Z.leb_refl. reflexivity.
  - cbn [native_to_cty cty_to_native].
    destruct (number_frac d) as (x & Ex & Hd & ->); [assumption|assumption|assumption|].
    match goal with H : forall x, representable float32 x -> _ |- _ =>
      assert (L := H x (round_to_representable float32 d x good32 Ex)
                       (round_to_nearest float32 d x good32 Ex)) end.
    unfold lt_num in L. rewrite Hd in L. assert (P := pow2_pos (den d)).
    apply Z.mul_lt_mono_pos_r in L; [|exact P].
    replace (num d <=? num x) with false by lia. reflexivity.
  - match goal with H : forall k v, In (k, v) m -> norm k = k /\ _ |- _ => rename H into Hm end.
    rewrite to_cty_map; [|assumption|intros k v I; apply (Hm k v I)].
    rewrite to_native_obj.
    assert (E : obj_loop (map (fun kv => (fst kv, native_to_cty norm (snd kv))) m) = Ok m).
    { clear S H0 H1. revert IH Hm. induction m as [|[k v] m IHm]; intros IH Hm; [reflexivity|].
      cbn [map obj_loop fst snd].
      rewrite (IH k v (or_introl eq_refl)); [|apply (Hm k v); left; reflexivity].
      cbn [bindr]. rewrite IHm; [|intros k' v' I; apply (IH k' v'); right; exact I
                                |intros k' v' I; apply (Hm k' v'); right; exact I].
      cbn [bindr]. destruct (Hm k v (or_introl eq_refl)) as [_ Sv].
      destruct v; try reflexivity. inversion Sv. }
    rewrite E. cbn [bindr]. destruct m; [congruence|reflexivity].
  - match goal with H : forall v, In v l -> stable _ v |- _ => rename H into Hl end.
    cbn [native_to_cty]. rewrite to_native_tup.
    assert (E : tup_loop (map (native_to_cty norm) l) = Ok l).
    { clear S H0. revert IH Hl. induction l as [|v l IHl]; intros IH Hl; [reflexivity|].
      cbn [map tup_loop].
      rewrite (IH v (or_introl eq_refl)); [|apply (Hl v); left; reflexivity].
      cbn [bindr]. rewrite IHl; [|intros v' I; apply (IH v'); right; exact I
                                |intros v' I; apply (Hl v'); right; exact I].
      cbn [bindr]. assert (Sv := Hl v (or_introl eq_refl)).
      destruct v; try reflexivity. inversion Sv. }
    rewrite E. cbn [bindr]. destruct l; [congruence|reflexivity].
Qed.
End Norm.
