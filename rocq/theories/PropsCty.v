(* C34, C35: converting numbers and values between native Go data and cty. *)

From Verif Require Import Base CtyModel CtySpec CtyProofs CtyProofs2.
From Coq Require Import ZifyBool ZifyNat ZifyN Lia.
Open Scope Z_scope.

(* C34 in full: every number that an int64 or a float64 holds exactly converts, to a native
   number of the same value, of an integer type when it is whole. *)
Definition exact_native (d : dyadic) (v : native) : Prop :=
  match v with
  | NInt z | NInt64 z => is_whole d z
  | NF32 x | NF64 x => same_num d x /\ ~ whole d
  | _ => False
  end.
Definition C34_full : Prop := forall d,
  (exists z, is_whole d z /\ in_int64 z) \/ representable float64 d ->
  exists v, cty_number_to_native d = Ok v /\ exact_native d v.

(* It holds for the integers of int64. *)
Theorem C34_int64_partial : forall d z, is_whole d z -> in_int64 z ->
  exists v, cty_number_to_native d = Ok v
    /\ ((v = NInt z /\ in_int32 z) \/ (v = NInt64 z /\ ~ in_int32 z)).
Proof. exact number_int. Qed.

(* For the positive fractions: they convert; a fraction that float32 holds, and one whose
   nearest float32 is below it, convert exactly; the others give the nearest float32. *)
Theorem C34_fraction_partial : forall d, 0 < num d -> ~ whole d -> representable float64 d ->
  exists v, cty_number_to_native d = Ok v
    /\ (v = NF64 d
        \/ exists x, v = NF32 x /\ representable float32 x /\ nearest float32 x d /\ le_num d x)
    /\ (representable float32 d -> v = NF32 d)
    /\ ((forall x, representable float32 x -> nearest float32 x d -> lt_num x d) -> v = NF64 d).
Proof.
  intros d Hp Hw R. destruct (number_frac d Hp Hw R) as (x & Ex & Hd & Ec). rewrite Ec.
  assert (P := pow2_pos (den d)).
  assert (Rx := round_to_representable float32 d x good32 Ex).
  assert (Nx := round_to_nearest float32 d x good32 Ex).
  eexists. split; [reflexivity|]. split; [|split].
  - destruct (num d <=? num x) eqn:C; [right|left; reflexivity].
    exists x. repeat split; try assumption. unfold le_num. rewrite Hd.
    apply Z.mul_le_mono_nonneg_r; lia.
  - intros R3. rewrite (round_to_exact float32 d good32 R3) in Ex. injection Ex as <-.
    rewrite Z.leb_refl. reflexivity.
  - intros H. specialize (H x Rx Nx). unfold lt_num in H. rewrite Hd in H.
    apply Z.mul_lt_mono_pos_r in H; [|exact P].
    replace (num d <=? num x) with false by lia. reflexivity.
Qed.

(* Of the numbers a float64 holds, exactly the negative fractions and the integers beyond
   int64 are refused. *)
Theorem C34_refused : forall d, representable float64 d ->
  ((exists e, cty_number_to_native d = Err e)
   <-> (num d < 0 /\ ~ whole d) \/ (whole d /\ forall z, is_whole d z -> ~ in_int64 z)).
Proof.
  intros d R. split.
  - intros (e & E). destruct (fits_dec d) as [F|F]; [|tauto].
    destruct (number_fits d R F) as (v & E' & _). congruence.
  - intros H. apply number_err. tauto.
Qed.

Lemma round_too_large : forall d, 2 ^ 1024 * pow2 (den d) <= Z.abs (num d) -> round_to float64 d = None.
Proof.
  intros d Big. assert (P := pow2_pos (den d)).
  rewrite round_to_unfold. cbv zeta. set (a := Z.abs (num d)) in *. set (s := place float64 d).
  set (N := bound float64 + Z.of_nat (den d)).
  assert (HN : 2 ^ N <= a).
  { unfold N. rewrite Z.pow_add_r by (cbn; lia). exact Big. }
  assert (N0 : 0 <= N) by (unfold N; cbn [bound float64]; lia).
  assert (PN := pw_pos N N0).
  assert (LN : N <= Z.log2 a) by (apply Z.log2_le_pow2; lia).
  assert (S : s <= Z.log2 a /\ (s <= N \/ N < s)).
  { split; [|lia]. unfold s, place. fold a. unfold N in LN. cbn [bound prec last_place float64] in *. lia. }
  destruct (2 ^ N <=? round_mantissa a s) eqn:C; [reflexivity|]. exfalso. apply Z.leb_gt in C.
  destruct (Z.leb_spec s 0) as [S0|S0].
  - unfold round_mantissa in C. replace (s <=? 0) with true in C by lia. lia.
  - destruct (round_close a s S0) as (q & E & _ & Q). rewrite E in C. assert (PS := pw_pos s ltac:(lia)).
    destruct (log2_bounds a ltac:(lia)) as [La _].
    destruct S as [S1 [S2|S2]].
    + assert (2 ^ N = 2 ^ (N - s) * 2 ^ s) by (rewrite <- Z.pow_add_r by lia; f_equal; lia).
      assert (2 ^ (N - s) <= a / 2 ^ s) by (apply Z.div_le_lower_bound; lia).
      assert (2 ^ (N - s) * 2 ^ s <= q * 2 ^ s) by (apply Z.mul_le_mono_nonneg_r; lia). lia.
    + assert (2 ^ N <= 2 ^ s) by (apply Z.pow_le_mono_r; lia).
      assert (2 ^ s <= 2 ^ Z.log2 a) by (apply Z.pow_le_mono_r; lia).
      assert (1 <= a / 2 ^ s) by (apply Z.div_le_lower_bound; lia).
      assert (1 * 2 ^ s <= q * 2 ^ s) by (apply Z.mul_le_mono_nonneg_r; lia). lia.
Qed.
(* Nor do the numbers beyond float64 convert. *)
Theorem C34_too_large : forall d, 2 ^ 1024 * pow2 (den d) <= Z.abs (num d) ->
  exists e, cty_number_to_native d = Err e.
Proof.
  intros d Big. assert (P := pow2_pos (den d)).
  assert (R := round_too_large d Big).
  destruct (fits_dec d) as [[(z & W & I)|(W & Hp)]|F]; [| |exact (number_err d F)].
  - exfalso. unfold is_whole in W. fold (pow2 (den d)) in W. rewrite W, Z.abs_mul, (Z.abs_eq (pow2 _)) in Big by lia.
    apply Z.mul_le_mono_pos_r in Big; [|exact P]. unfold in_int64 in I.
    assert (2 ^ 63 < 2 ^ 1024) by reflexivity. lia.
  - unfold cty_number_to_native.
    assert (B64 : exact_or_above (snd (big_int64 d)) = false).
    { unfold big_int64. replace (num d <? min_int64 * pow2 (den d)) with false by (unfold min_int64; lia).
      destruct (max_int64 * pow2 (den d) <? num d); [reflexivity|].
      rewrite (big_int_frac d W). replace (0 <? num d) with true by lia. reflexivity. }
    assert (B : exact_or_above (snd (big_int d)) = false).
    { rewrite (big_int_frac d W). replace (0 <? num d) with true by lia. reflexivity. }
    rewrite B64, B. unfold from_float32, from_float64. rewrite R.
    destruct (exact_or_above (float_accuracy float32 d)); eexists; reflexivity.
Qed.

(* A result never misrepresents the number: it is the number, or the nearest float32. *)
Theorem C34_result_partial : forall d v, representable float64 d ->
  cty_number_to_native d = Ok v ->
  exact_native d v \/ exists x, v = NF32 x /\ representable float32 x /\ nearest float32 x d.
Proof.
  intros d v R H. destruct (number_native_ok d v R H) as [d z v W _ [[-> _]|[-> _]]|d x _ _ _ Rx Nx _|d _ W _].
  - left. exact W.
  - left. exact W.
  - right. exists x. auto.
  - left. split; [reflexivity|exact W].
Qed.

Lemma repr_frac : forall n (k : nat), Z.abs n < 2 ^ 53 -> (k <= 1074)%nat ->
  representable float64 (mkD n k).
Proof.
  intros n k Hn Hk. exists n, (- Z.of_nat k). unfold float64. cbn [prec last_place bound num den].
  repeat split; [exact Hn|lia| |].
  - rewrite Z.max_r, Z.max_l by lia. rewrite Z.opp_involutive. ring.
  - assert (P := pow2_pos k). fold (pow2 k). apply Z.lt_le_trans with (2 ^ 1024 * 1).
    + eapply Z.lt_trans; [exact Hn|]. reflexivity.
    + apply Z.mul_le_mono_nonneg_l; [|lia]. apply Z.pow_nonneg; lia.
Qed.

(* -1.5 is refused, 2^63 is refused, and 3.14 comes back as another number. *)
Theorem C34_refuted : ~ C34_full
  /\ (exists d, representable float64 d /\ ~ whole d /\ exists e, cty_number_to_native d = Err e)
  /\ (exists d, representable float64 d /\ whole d /\ exists e, cty_number_to_native d = Err e)
  /\ (exists d x, representable float64 d /\ cty_number_to_native d = Ok (NF32 x) /\ lt_num d x).
Proof.
  assert (A : representable float64 (mkD (-3) 1)) by (apply repr_frac; [reflexivity|lia]).
  assert (W : ~ whole (mkD (-3) 1)).
  { intros (z & W). unfold is_whole in W. cbn [num den] in W.
    change (2 ^ Z.of_nat 1) with 2 in W. lia. }
  split; [|split; [|split]].
  - intros F. destruct (F _ (or_intror A)) as (v & E & _). vm_compute in E. discriminate E.
  - exists (mkD (-3) 1). split; [exact A|]. split; [exact W|]. eexists. vm_compute. reflexivity.
  - exists (mkD (2 ^ 63) 0). split; [|split].
    + exists 1, 63. unfold float64. cbn [prec last_place bound num den].
      split; [reflexivity|]. split; [lia|]. split; [reflexivity|]. vm_compute. reflexivity.
    + exists (2 ^ 63). unfold is_whole. cbn [num den]. change (2 ^ Z.of_nat 0) with 1. lia.
    + eexists. vm_compute. reflexivity.
  - exists (mkD 7070651414971679 51), (mkD 7070651651194880 51).
    split; [apply repr_frac; [reflexivity|lia]|]. split; vm_compute; reflexivity.
Qed.

(* 7/4 and 1.234 convert exactly, the first as a float32, the second as a float64; a number
   beyond the precision of float64 can even become an infinity. *)
Example C34_nonvacuous :
  cty_number_to_native (mkD 7 2) = Ok (NF32 (mkD 7 2))
  /\ cty_number_to_native (mkD 5557441940175192 52) = Ok (NF64 (mkD 5557441940175192 52))
  /\ cty_number_to_native (mkD (- 4 * 2 ^ 40) 2) = Ok (NInt64 (- 2 ^ 40))
  /\ cty_number_to_native (mkD (2 ^ 201 + 1) 1) = Ok NInf32
  /\ cty_number_to_native (mkD (2 ^ 1025 + 1) 1) = Err "value out of range".
Proof. vm_compute. repeat split. Qed.

(* C35 in full: what comes back is the data with the nulls inside collections left out. *)
Fixpoint drop_nulls (v : native) : native :=
  match v with
  | NMap m => NMap ((fix go m := match m with
      | [] => []
      | (k, NNil) :: m' => go m'
      | (k, v) :: m' => (k, drop_nulls v) :: go m'
      end) m)
  | NList l => NList ((fix go l := match l with
      | [] => []
      | NNil :: l' => go l'
      | v :: l' => drop_nulls v :: go l'
      end) l)
  | _ => v
  end.
Definition C35_full (norm : string -> string) : Prop := forall v, tidy norm v -> typed v ->
  cty_to_native (native_to_cty norm v) = Ok (drop_nulls v).

(* It holds, with nothing dropped at all, for data without nulls or empty literals whose
   numbers have the type CtyNumberToNative chooses. *)
Theorem C35_stable_partial : forall norm v, stable norm v ->
  cty_to_native (native_to_cty norm v) = Ok v.
Proof. exact round_trip_stable. Qed.

(* For all data: when the way back succeeds, each element comes back in its place. *)
Theorem C35_comes_back_partial : forall norm v v', tidy norm v -> typed v ->
  cty_to_native (native_to_cty norm v) = Ok v' -> comes_back v v'.
Proof. exact round_trip_sound. Qed.

(* And it succeeds when every number in the data fits. *)
Theorem C35_succeeds_partial : forall norm v, tidy norm v -> typed v -> all_fit v ->
  exists v', cty_to_native (native_to_cty norm v) = Ok v' /\ comes_back v v'.
Proof.
  intros norm v T Ty F. destruct (round_trip_total norm v T Ty F) as (v' & E).
  exists v'. split; [exact E|]. exact (round_trip_sound norm v v' T Ty E).
Qed.

(* The way back alone does drop the nulls inside collections, and only them. *)
Theorem C35_nulls : forall c v, cty_to_native c = Ok v <-> converts c v.
Proof. exact to_native_spec. Qed.

(* The keys of the object are the normal forms of the keys of the map, so keys of one normal
   form are merged. *)
Theorem C35_keys : forall norm m, exists o, native_to_cty norm (NMap m) = CObj o /\
  forall k, In k (keys o) <-> exists k', In k' (keys m) /\ norm k' = k.
Proof.
  intros norm m. eexists. split; [reflexivity|]. intro k.
  assert (H : forall l (h : list (string * cval)), In k (keys (fold_left (fun h kv => insert (fst kv) (snd kv) h) l h)) <->
    In k (keys h) \/ In k (map fst l)).
  { induction l as [|[x y] l IH]; intro h; cbn [fold_left map]; [cbn; tauto|]. rewrite IH. cbn [fst snd In].
    rewrite !lookup_Some_key. setoid_rewrite lookup_insert. destruct (eq_dec k x) as [->|N].
    - split; [auto|]. intros [_|[_|H]]; [left; eauto|left; eauto|auto].
    - split; [tauto|]. intros [H|[H|H]]; [auto|congruence|auto]. }
  rewrite H, map_map. cbn [fst keys map]. split.
  - intros [[]|I]. apply in_map_iff in I as ((k' & v) & <- & I). exists k'. split; [|reflexivity].
    apply in_map_iff. exists (k', v). auto.
  - intros (k' & I & <-). right. apply in_map_iff in I as ((k2 & v) & <- & I). apply in_map_iff. exists (k2, v). auto.
Qed.

(* Then entries are lost. *)
Theorem C35_merge_refuted : exists norm v, (forall s, norm (norm s) = norm s) /\
  v = NMap [("A", NBool true); ("a", NBool false)] /\
  cty_to_native (native_to_cty norm v) = Ok (NMap [("a", NBool false)]).
Proof.
  exists (fun s => if String.eqb s "A" then "a" else s). eexists. split; [|split; [reflexivity|vm_compute; reflexivity]].
  intro s. destruct (String.eqb s "A") eqn:E; [reflexivity|]. rewrite E. reflexivity.
Qed.

(* A null in a list is not dropped: NativeToCty makes it an empty object. *)
Theorem C35_refuted : forall norm, ~ C35_full norm
  /\ exists v, tidy norm v /\ typed v
       /\ cty_to_native (native_to_cty norm v) = Ok (NList [NNilMap; NBool true])
       /\ drop_nulls v = NList [NBool true].
Proof.
  intros norm.
  assert (T : tidy norm (NList [NNil; NBool true])).
  { constructor. intros v [<-|[<-|[]]]; constructor. }
  assert (Ty : typed (NList [NNil; NBool true])).
  { constructor. intros v [<-|[<-|[]]]; constructor. }
  split.
  - intros F. specialize (F _ T Ty). vm_compute in F. discriminate F.
  - exists (NList [NNil; NBool true]). repeat split; try assumption.
Qed.

Example C35_nonvacuous :
  let v := NMap [("a", NList [NInt 1; NStr "x"; NMap [("b", NF32 (mkD 3 1))]]);
                 ("c", NInt64 (2 ^ 40)); ("d", NNilList)] in
  stable (fun s => s) v /\ cty_to_native (native_to_cty (fun s => s) v) = Ok v
  /\ converts (CTup [CNull; CBool true; CObj [("k", CNull)]]) (NList [NBool true; NNilMap]).
Proof.
  split; [|split].
  - apply st_map; [discriminate| |].
    { repeat constructor; simpl; intuition discriminate. }
    intros k v [[= <- <-]|[[= <- <-]|[[= <- <-]|[]]]]; (split; [reflexivity|]).
    + apply st_list; [discriminate|]. intros v [<-|[<-|[<-|[]]]].
      * constructor. unfold in_int32. lia.
      * constructor. reflexivity.
      * apply st_map; [discriminate|repeat constructor; simpl; tauto|].
        intros k v [[= <- <-]|[]]. split; [reflexivity|]. constructor; [reflexivity| |].
        -- intros (z & W). unfold is_whole in W. cbn [num den] in W.
           change (2 ^ Z.of_nat 1) with 2 in W. lia.
        -- exists 3, (- 1). unfold float32. cbn [prec last_place bound num den].
           repeat split; lia.
    + constructor; unfold in_int64, in_int32; lia.
    + constructor.
  - vm_compute. reflexivity.
  - apply to_native_spec. reflexivity.
Qed.

Print Assumptions C34_int64_partial.
Print Assumptions C34_fraction_partial.
Print Assumptions C34_refused.
Print Assumptions C34_result_partial.
Print Assumptions C34_refuted.
Print Assumptions C35_stable_partial.
Print Assumptions C35_comes_back_partial.
Print Assumptions C35_succeeds_partial.
Print Assumptions C35_nulls.
Print Assumptions C35_refuted.
Print Assumptions C34_too_large.
Print Assumptions C35_keys.
Print Assumptions C35_merge_refuted.
