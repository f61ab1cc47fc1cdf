(* lookup with a default, and matchkeys, while parts of their arguments are unknown. *)

From Verif Require Import Base CtyModel FuncModel FuncSpec FuncProofs FuncList FuncUnknown.

Section Lookup.
Variable convert : value -> ty -> result value.
Variable quoted : string -> string.
Variable early : list (param * value) -> list mark.
Hypothesis Hc : convert_final convert.

Let params (m k d : value) := [(mkParam dyn false false false true, m); (mkParam str false false false true, k); (mkParam dyn true true true true, d)].

Lemma lookup_call3 : forall m k d, fixed m -> type_of k = str -> is_null m = false -> is_null k = false ->
  call early (lookup_func convert quoted) [m; k; d]
  = (do t <- no_panic (lookup_type convert quoted [m; k; d]);
     if negb (is_known m) || negb (is_known k)
     then Ok (with_marks (early (params m k d)) (unknown t))
     else do r <- no_panic (lookup_impl convert quoted [m; k; d] t); Ok (with_marks [] r)).
Proof.
  intros m k d D Tk N N'. assert (Kd : kind_eqb (kind_of (type_of m)) KDyn = false) by (apply not_dyn; exact D).
  unfold call, lookup_func. cbn [f_params f_var pair_args check_args p_null p_dyn p_type negb f_type f_impl map existsb flat_map].
  rewrite N, N', Kd, !conforms_dyn, Tk. unfold seen, unknown_arg, taken_marks. cbn [fst snd p_marked p_unknown negb orb andb bindr kind_of str kind_eqb].
  rewrite ?andb_false_r, ?andb_true_r, ?orb_false_r.
  cbn [negb bindr andb orb app p_marked p_unknown p_null fst snd]. rewrite ?andb_false_r, ?andb_true_r, ?orb_false_r.
  rewrite conforms_refl. destruct (kind_eqb (kind_of (type_of d)) KDyn); reflexivity.
Qed.
Lemma lookup_null3 : forall m k d, fixed m -> type_of k = str -> is_null m = true \/ is_null k = true ->
  exists e, call early (lookup_func convert quoted) [m; k; d] = Err e.
Proof.
  intros m k d D Tk N. assert (Kd : kind_eqb (kind_of (type_of m)) KDyn = false) by (apply not_dyn; exact D).
  unfold call, lookup_func. cbn [f_params f_var pair_args check_args p_null p_dyn p_type negb f_type f_impl map existsb flat_map].
  rewrite Kd, conforms_dyn, Tk. destruct (is_null m); [eexists; reflexivity|]. cbn [andb negb]. destruct (is_null k); [eexists; reflexivity|].
  destruct N; discriminate.
Qed.
Lemma lookup_type_final3 : forall m m' k k' d d' t, typed m' -> fixed m -> completes m m' -> type_of k = str -> completes k k' -> is_null k' = false -> is_known k' = true ->
  is_null k = false -> is_null m' = false -> is_known m' = true -> fixed d -> completes d d' ->
  (kind_of (type_of m) = KMap -> exists r, convert d' (element_type (type_of m)) = Ok r) ->
  lookup_type convert quoted [m; k; d] = Ok t ->
  exists t', lookup_type convert quoted [m'; k'; d'] = Ok t' /\ (t = t' \/ (t = dyn /\ is_known k = false)) /\
    forall r, lookup_impl convert quoted [m'; k'; d'] t' = Ok r -> conforms (type_of r) t' = true.
Proof.
  intros m m' k k' d d' t Tm D C Tk Ck Nk' Kk' Nk Nm' Km' Dd Cd Cv E.
  assert (Tk' : type_of k' = str) by (rewrite (completes_type k k' Ck); [exact Tk|unfold fixed; rewrite Tk; reflexivity]).
  destruct (text_shape k' Tk' Nk' Kk') as (mk & key & lk & ->).
  pose proof (completes_type _ _ C D) as Et. pose proof (completes_type _ _ Cd Dd) as Ed.
  unfold lookup_type in *. cbn [List.length Nat.ltb Nat.leb] in *. rewrite Et.
  destruct (kind_of (type_of m)) eqn:Km; try discriminate.
  - destruct (Cv eq_refl) as (r0 & Hr0). rewrite Hr0. destruct (convert d (element_type (type_of m))); try discriminate.
    injection E as <-. eexists. split; [reflexivity|]. split; [auto|]. intros r H. unfold lookup_impl in H. cbn [as_string unmark bindr] in H.
    rewrite <- Et in Km, Hr0, H |- *. destruct Tm as [| | | | |ms0 t0 l0 Hl|ms0 t0 l0 Hl|ms0 t0 l0 Nd Hl|ms0 l0 Hl|ms0 l0 Nd Hl]; try discriminate.
    cbn [shape_of elems] in H. destruct (lookup key l0) as [v|] eqn:L.
    + injection H as <-. rewrite type_with. destruct (Hl key v (lookup_In _ _ _ L)) as [_ ->]. apply conforms_refl.
    + rewrite Hr0 in H. cbn [bindr] in H. injection H as <-. rewrite type_with. exact (proj2 Hc _ _ _ Hr0).
  - cbn [shape_of]. rewrite <- Et in Km. destruct Tm as [| | | | |ms0 t0 l0 Hl|ms0 t0 l0 Hl|ms0 t0 l0 Nd Hl|ms0 l0 Hl|ms0 l0 Nd Hl]; try discriminate.
    rewrite <- Et in E |- *. rewrite obj_type_lookup. destruct (lookup key l0) as [v|] eqn:L; cbn [option_map] in *.
    + eexists. split; [reflexivity|]. split.
      * destruct (is_known k) eqn:Kk.
        -- destruct (text_shape k Tk Nk Kk) as (mk0 & key0 & lk0 & ->). pose proof (completes_shape _ _ Ck Kk) as Sh. cbn in Sh. injection Sh as <-.
           cbn [shape_of] in E. rewrite obj_type_lookup, L in E. cbn in E. left. congruence.
        -- unfold is_known in Kk. destruct (shape_of k); try discriminate. right. split; congruence.
      * intros r H. unfold lookup_impl in H. cbn [as_string unmark bindr shape_of elems] in H. rewrite L in H. injection H as <-. rewrite type_with. apply conforms_refl.
    + eexists. split; [reflexivity|]. split.
      * destruct (is_known k) eqn:Kk.
        -- destruct (text_shape k Tk Nk Kk) as (mk0 & key0 & lk0 & ->). pose proof (completes_shape _ _ Ck Kk) as Sh. cbn in Sh. injection Sh as <-.
           cbn [shape_of] in E. rewrite obj_type_lookup, L in E. cbn in E. left. congruence.
        -- unfold is_known in Kk. destruct (shape_of k); try discriminate. right. split; congruence.
      * intros r H. unfold lookup_impl in H. cbn [as_string unmark bindr shape_of elems] in H. rewrite L in H.
        destruct (convert d' (type_of d')) as [v| |] eqn:Hv; try discriminate. cbn [bindr] in H. injection H as <-. rewrite type_with. exact (proj2 Hc _ _ _ Hv).
Qed.
Lemma lookup_err_final3 : forall m m' k k' d d' e, fixed m -> completes m m' -> completes k k' -> completion d d' ->
  no_panic (lookup_type convert quoted [m; k; d]) = Err e -> exists e', no_panic (lookup_type convert quoted [m'; k'; d']) = Err e'.
Proof.
  intros m m' k k' d d' e D C Ck Cd E. unfold lookup_type in *. cbn [List.length Nat.ltb Nat.leb] in *. rewrite (completes_type _ _ C D).
  destruct (kind_of (type_of m)); try (eexists; reflexivity).
  - pose proof (proj1 Hc d d' (element_type (type_of m)) Cd) as F.
    destruct (convert d (element_type (type_of m))); cbn [no_panic] in *; try discriminate; cbn [final] in F; [|contradiction].
    destruct F as (e' & ->). cbn. eauto.
  - destruct (is_known k) eqn:Kk.
    + rewrite (completes_shape _ _ Ck Kk). destruct (shape_of k); try discriminate; try (cbn; eauto; fail).
      match type of E with context [lookup ?s ?l] => destruct (lookup s l); discriminate end.
    + unfold is_known in Kk. destruct (shape_of k); discriminate.
Qed.
Lemma lookup_impl_final3 : forall m m' k k' d d' t, completes m m' -> completes k k' -> completion d d' -> is_known m = true -> is_known k = true ->
  final (no_panic (lookup_impl convert quoted [m; k; d] t)) (no_panic (lookup_impl convert quoted [m'; k'; d'] t)).
Proof.
  intros [ms s l] m' k k' d d' t C Ck Cd Km Kk. pose proof (completes_shape _ _ Ck Kk) as Sk.
  destruct k as [mk sk lk], k' as [mk' sk' lk']. cbn in Sk. subst sk'. unfold lookup_impl. cbn [unmark].
  destruct (as_string (Val [] sk lk)) as [key|e|e] eqn:A; destruct sk; try discriminate; cbn [as_string bindr no_panic]; try (cbn; eauto; fail).
  cbn in A. injection A as ->.
  apply completes_inv in C. destruct C as [(t0 & p & -> & _)|[(ms' & l' & -> & _ & _ & F)|(ms' & t0 & l' & -> & -> & _)]]; [discriminate| |cbn; eauto].
  cbn [shape_of elems marks_of].
  assert (G : final (no_panic match lookup key l with Some v => Ok (with_marks (union ms mk) v) | None => do v <- convert d t; Ok (with_marks (union ms mk) v) end)
    (no_panic match lookup key l' with Some v => Ok (with_marks (union ms' mk') v) | None => do v <- convert d' t; Ok (with_marks (union ms' mk') v) end)).
  { destruct (pairs_lookup _ _ _ key F) as [(-> & ->)|(v & v' & -> & -> & X)].
    - pose proof (final_with (union ms mk) (union ms' mk') _ _ (proj1 Hc d d' t Cd)) as W.
      pose proof (proj1 Hc d d' t Cd) as W0.
      destruct (convert d t) as [v| |]; destruct (convert d' t) as [v'| |]; cbn [bindr no_panic final] in *; eauto; try contradiction;
      destruct W0 as [(? & W0 & _)|(_ & ? & W0)]; discriminate.
    - cbn. left. eexists. split; [reflexivity|]. apply completes_with. exact X. }
  destruct s; try discriminate; try (cbn; eauto; fail); exact G.
Qed.
Lemma lookup_default_final : forall m m' k k' d d', fixed m -> completion m m' -> type_of k = str -> completion k k' -> fixed d -> completion d d' ->
  (kind_of (type_of m) = KMap -> exists r, convert d' (element_type (type_of m)) = Ok r) ->
  final (call early (lookup_func convert quoted) [m; k; d]) (call early (lookup_func convert quoted) [m'; k'; d']).
Proof.
  intros m m' k k' d d' D (C & Tm & W) Tk (Ck & Tk0 & Wk) Dd Cd Cv.
  assert (Dk : fixed k) by (unfold fixed; rewrite Tk; reflexivity).
  assert (Tk' : type_of k' = str) by (rewrite (completes_type k k' Ck Dk); exact Tk).
  assert (D' : fixed m') by (unfold fixed; rewrite (completes_type _ _ C D); exact D).
  destruct (is_null m) eqn:N1.
  { destruct (lookup_null3 m k d D Tk (or_introl N1)) as (e & ->). exact (lookup_null3 m' k' d' D' Tk' (or_introl (null_known _ _ C N1))). }
  destruct (is_null k) eqn:N2.
  { destruct (lookup_null3 m k d D Tk (or_intror N2)) as (e & ->). exact (lookup_null3 m' k' d' D' Tk' (or_intror (null_known _ _ Ck N2))). }
  rewrite (lookup_call3 m k d D Tk N1 N2).
  destruct (no_panic (lookup_type convert quoted [m; k; d])) as [t|e|e] eqn:Et.
  2:{ cbn [bindr final]. destruct (is_null m') eqn:N3; [exact (lookup_null3 m' k' d' D' Tk' (or_introl N3))|].
      destruct (is_null k') eqn:N4; [exact (lookup_null3 m' k' d' D' Tk' (or_intror N4))|].
      rewrite (lookup_call3 m' k' d' D' Tk' N3 N4). destruct (lookup_err_final3 _ _ _ _ _ _ e D C Ck Cd Et) as (e' & ->). cbn. eauto. }
  2:{ exfalso. exact (no_panic_not _ _ _ Et). }
  apply (proj1 (no_panic_Ok _ _ _)) in Et. cbn [bindr].
  assert (Un : forall r, negb (is_known m) || negb (is_known k) = true -> (exists e, r = Err e) ->
    final (if negb (is_known m) || negb (is_known k)
      then Ok (with_marks (early (params m k d)) (unknown t))
      else do r <- no_panic (lookup_impl convert quoted [m; k; d] t); Ok (with_marks [] r)) r).
  { intros r U (e & ->). rewrite U. right. split; [unfold is_known; rewrite shape_with; reflexivity|eauto]. }
  assert (Nm : is_null m' = true -> negb (is_known m) || negb (is_known k) = true).
  { intro N. destruct (is_known m) eqn:K; [|reflexivity]. unfold is_null in *. rewrite (completes_shape _ _ C K) in N. congruence. }
  assert (Nk : is_null k' = true -> negb (is_known m) || negb (is_known k) = true).
  { intro N. destruct (is_known k) eqn:K; [|apply orb_true_r]. unfold is_null in *. rewrite (completes_shape _ _ Ck K) in N. congruence. }
  destruct (is_null m') eqn:N3; [apply Un; [auto|exact (lookup_null3 m' k' d' D' Tk' (or_introl N3))]|].
  destruct (is_null k') eqn:N4; [apply Un; [auto|exact (lookup_null3 m' k' d' D' Tk' (or_intror N4))]|].
  rewrite (lookup_call3 m' k' d' D' Tk' N3 N4), (known_top _ W), (known_top _ Wk). cbn [negb orb].
  destruct (lookup_type_final3 m m' k k' d d' t Tm D C Tk Ck N4 (known_top _ Wk) N2 N3 (known_top _ W) Dd (proj1 Cd) Cv Et) as (t' & Et' & Htt & Ty).
  rewrite Et'. cbn [no_panic bindr]. destruct (negb (is_known m) || negb (is_known k)) eqn:U.
  - apply (final_with _ _ (Ok (unknown t))). apply final_unknown; [|apply no_panic_not].
    intros r H. apply (proj1 (no_panic_Ok _ _ _)) in H. destruct Htt as [->|(-> & _)]; [exact (Ty r H)|apply conforms_dyn].
  - apply orb_false_iff in U. destruct U as [U1 U2]. apply negb_false_iff in U1, U2.
    destruct Htt as [->|(_ & Hk)]; [|congruence]. apply final_with. apply lookup_impl_final3; assumption.
Qed.
End Lookup.

(* matchkeys with a known search set *)
Section Matchkeys.
Variable sn : number -> number -> bool.
Variable unify : list ty -> option ty.
Variable convert : value -> ty -> result value.
Variable early : list (param * value) -> list mark.
Hypothesis Hu : forall t, unify [t; t] = Some t.
Hypothesis Hv : forall v, convert v (type_of v) = Ok v.

Lemma matching_in : forall ks ss vs l x, matching sn ks ss vs = Some l -> In x l -> In x vs.
Proof.
  induction ks as [|[n k] ks IH]; intros ss [|v vs] l x H J; cbn [matching] in H; try (injection H as <-; destruct J; fail).
  destruct (any_equal sn k ss) as [b|]; [|discriminate]. destruct (matching sn ks ss vs) as [l0|] eqn:M; [|discriminate].
  injection H as <-. destruct b; [destruct J as [<-|J]; [left; reflexivity|]|]; right; exact (IH _ _ _ _ M J).
Qed.
Definition matchkeys_impl (v k s : value) (t : ty) : result value :=
  do vs <- iterate v; do ks <- iterate k;
  if negb (Nat.eqb (List.length vs) (List.length ks)) then Err "length of keys and values should be equal" else
  do ss <- iterate s;
  match ss with
  | [] => Ok (list_val (element_type t) [])
  | _ =>
    if negb (wholly_known v) || negb (wholly_known k) then Ok (unknown t) else
    match matching sn ks ss (map snd vs) with
    | None | Some [] => Ok (list_val (element_type t) [])
    | Some l => Ok (list_val (element_type t) l)
    end
  end.
Lemma matchkeys_impl_eq : forall v k s t, type_of s = type_of k ->
  f_impl (matchkeys_func sn unify convert) [v; k; s] t = matchkeys_impl v k s t.
Proof.
  intros v k s t E. cbn [f_impl matchkeys_func]. unfold matchkeys_impl. rewrite E, Hu, Hv.
  destruct (iterate v) as [vs|?|?]; [|reflexivity..]. cbn [bindr]. destruct (iterate k) as [ks|?|?] eqn:Ik; [|reflexivity..]. cbn [bindr].
  destruct (negb _); [reflexivity|]. cbn [bindr]. rewrite <- E, Hv. cbn [bindr]. rewrite ?Ik. cbn [bindr].
  destruct (iterate s) as [ss|?|?]; [|reflexivity..]. cbn [bindr]. destruct ss; [reflexivity|]. destruct (negb _ || negb _); [reflexivity|].
  destruct (matching _ _ _ _) as [[|]|]; reflexivity.
Qed.
Lemma matchkeys_impl_type : forall v k s u r, matchkeys_impl v k s (list_of u) = Ok r -> conforms (type_of r) (list_of u) = true.
Proof.
  intros v k s u r H. unfold matchkeys_impl in H.
  destruct (iterate v) as [vs|?|?]; try discriminate. destruct (iterate k) as [ks|?|?]; try discriminate. cbn [bindr] in H.
  destruct (negb _); [discriminate|]. destruct (iterate s) as [ss|?|?]; try discriminate. cbn [bindr] in H.
  destruct ss; [injection H as <-; apply conforms_refl|]. destruct (negb _ || negb _); [injection H as <-; apply conforms_refl|].
  destruct (matching _ _ _ _) as [[|]|]; injection H as <-; apply conforms_refl.
Qed.
Lemma iterate_final : forall v v', completes v v' -> is_known v = true -> (forall t, shape_of v <> SSet t) ->
  (exists l l', iterate (unmark_deep v) = Ok l /\ iterate (unmark_deep v') = Ok l' /\ List.length l' = List.length l) \/
  (exists p p', iterate (unmark_deep v) = Panic p /\ iterate (unmark_deep v') = Panic p').
Proof.
  intros [ms s l] v' C K N. apply completes_inv in C.
  destruct C as [(t & p & -> & _)|[(ms' & l' & -> & _ & _ & F)|(ms' & t & l' & -> & -> & _)]]; [discriminate| |destruct (N t eq_refl)].
  rewrite !unmark_deep_eq. assert (L : List.length (unmark_all l') = List.length (unmark_all l)).
  { unfold unmark_all. rewrite !map_length. clear -F. induction F; cbn; congruence. }
  destruct s; try (right; do 2 eexists; split; reflexivity); left; do 2 eexists; (split; [reflexivity|split; [reflexivity|exact L]]).
Qed.
Lemma matchkeys_final : forall v v' k k' s s' u t, type_of v = list_of u -> type_of k = list_of t -> type_of s = list_of t -> fixed v -> fixed k ->
  completion v v' -> completion k k' -> completion s s' -> wholly_known s = true ->
  final (call early (matchkeys_func sn unify convert) [v; k; s]) (call early (matchkeys_func sn unify convert) [v'; k'; s']).
Proof.
  intros v v' k k' s s' u t Ev Ek Es Dv Dk Cv Ck Cs Ws.
  assert (Ds : fixed s) by (unfold fixed in *; rewrite Es, <- Ek; exact Dk).
  pose proof (completes_type _ _ (proj1 Cv) Dv) as Tv. pose proof (completes_type _ _ (proj1 Ck) Dk) as Tk. pose proof (completes_type _ _ (proj1 Cs) Ds) as Ts.
  assert (NS : forall x w y, type_of x = list_of w -> shape_of x <> SSet y) by (intros [? ? ?] w y E H; cbn in H; subst; discriminate).
  change (matchkeys_func sn unify convert) with (mkFunc (f_params (matchkeys_func sn unify convert)) None (f_type (matchkeys_func sn unify convert)) (f_impl (matchkeys_func sn unify convert))).
  apply final_call.
  - repeat constructor.
  - constructor; [split; [apply Cv|exact Dv]|]. constructor; [split; [apply Ck|exact Dk]|]. constructor; [split; [apply Cs|exact Ds]|constructor].
  - cbn. rewrite (known_top _ (proj2 (proj2 Cv))), (known_top _ (proj2 (proj2 Ck))), (known_top _ (proj2 (proj2 Cs))). reflexivity.
  - cbn [map f_type matchkeys_func]. rewrite !type_unmark_deep, Tv, Tk, Ts. reflexivity.
  - intros w r Ew H. cbn [map] in Ew, H. rewrite matchkeys_impl_eq in H by (rewrite !type_unmark_deep; congruence).
    cbn [f_type matchkeys_func] in Ew. destruct (unify _); [|discriminate]. injection Ew as <-. rewrite type_unmark_deep, Ev in *.
    exact (matchkeys_impl_type _ _ _ _ _ H).
  - intros w Ew U. cbn [map] in Ew |- *. rewrite !matchkeys_impl_eq by (rewrite !type_unmark_deep; congruence).
    cbn [f_type matchkeys_func] in Ew. destruct (unify _); [|discriminate]. injection Ew as <-. rewrite type_unmark_deep, Ev in *.
    cbn [existsb] in U. apply orb_false_iff in U. destruct U as [U1 U]. apply orb_false_iff in U. destruct U as [U2 U]. apply negb_false_iff in U1, U2.
    destruct (wholly_known v && wholly_known k) eqn:W.
    + apply andb_true_iff in W. destruct W as [W1 W2].
      rewrite (completes_known _ _ (proj1 Cv) W1), (completes_known _ _ (proj1 Ck) W2), (completes_known _ _ (proj1 Cs) Ws).
      apply final_refl. intros r H. unfold matchkeys_impl in H. rewrite !known_unmark, W1, W2 in H. cbn [negb orb] in H. change (element_type (list_of u)) with u in H.
      destruct (iterate (unmark_deep v)) as [vs|?|?] eqn:Iv; try discriminate. destruct (iterate (unmark_deep k)) as [ks|?|?]; try discriminate. cbn [bindr] in H.
      destruct (negb (Nat.eqb (List.length vs) (List.length ks))); [discriminate|]. destruct (iterate (unmark_deep s)) as [ss|?|?]; try discriminate. cbn [bindr negb orb] in H.
      destruct ss as [|x0 ss]; [assert (r = list_val u []) by congruence; subst r; reflexivity|].
      destruct (matching _ _ _ _) as [l|] eqn:M; [|assert (r = list_val u []) by congruence; subst r; reflexivity].
      assert (R : r = list_val u l) by (destruct l; congruence). subst r.
      assert (Kl : forall x, In x l -> wholly_known x = true).
      { intros x J. apply (matching_in _ _ _ _ _ M) in J. apply in_map_iff in J. destruct J as ([n y] & <- & J).
        assert (X : wholly_known (unmark_deep v) = true) by (rewrite known_unmark; exact W1).
        destruct (unmark_deep v) as [[|] sh el]; cbn in Iv; [|destruct sh; discriminate].
        assert (el = vs) by (destruct sh; congruence). subst el. exact (proj2 (wholly_known_in _ _ _ X) n y J). }
      clear -Kl. unfold list_val, plain. induction l as [|x l IH]; [reflexivity|]. cbn in *. rewrite (Kl x (or_introl eq_refl)). cbn.
      apply IH. auto.
    + unfold matchkeys_impl at 1. rewrite !known_unmark. rewrite <- negb_andb, W. cbn [negb].
      pose proof (iterate_final _ _ (proj1 Cv) U1 (fun y => NS v u y Ev)) as I1. pose proof (iterate_final _ _ (proj1 Ck) U2 (fun y => NS k t y Ek)) as I2.
      pose proof (matchkeys_impl_type (unmark_deep v') (unmark_deep k') (unmark_deep s') u) as Ty.
      assert (F : forall b, b = matchkeys_impl (unmark_deep v') (unmark_deep k') (unmark_deep s') (list_of u) -> final (Ok (unknown (list_of u))) (no_panic b)).
      { intros b ->. apply final_unknown; [|apply no_panic_not]. intros r H. apply (proj1 (no_panic_Ok _ _ _)) in H. exact (Ty r H). }
      specialize (F _ eq_refl). unfold matchkeys_impl in F |- *. rewrite (completes_known _ _ (proj1 Cs) Ws) in F |- *.
      destruct I1 as [(l1 & l1' & -> & I1 & L1)|(p1 & p1' & -> & ->)]; [|cbn; eauto]. rewrite I1 in F |- *.
      destruct I2 as [(l2 & l2' & -> & I2 & L2)|(p2 & p2' & -> & ->)]; [|cbn; eauto]. rewrite I2 in F |- *. cbn [bindr] in F |- *. rewrite L1, L2 in F |- *.
      destruct (negb (Nat.eqb (List.length l1) (List.length l2))); [cbn; eauto|]. destruct (iterate (unmark_deep s)) as [[|x ss]|?|?]; cbn [bindr no_panic] in F |- *; [|exact F|cbn; eauto..].
      apply (final_refl (Ok (list_val (element_type (list_of u)) []))). intros r H. injection H as <-. reflexivity.
Qed.
End Matchkeys.
