(* What functions written in Go return, handed on as native data. *)

From Verif Require Import Base CtyModel CtySpec FuncModel FuncSpec NativeModel PropsNative GoValModel PropsGoVal PropsCty.

(* ----- specification ----- *)

(* The value itself, and what is in it at any depth. *)
Inductive part_of : gv -> gv -> Prop :=
| pa_self v : part_of v v
| pa_slice e l x v : In x l -> part_of v x -> part_of v (VSlice e (Some l))
| pa_map e m k x v : In (k, x) m -> part_of v x -> part_of v (VMap e (Some m))
| pa_ptr e x v : part_of v x -> part_of v (VPtr e (Some x)).

(* ----- proofs ----- *)

Lemma stands_clear : forall norm v x, stands_for norm v x -> clear x.
Proof.
  intros norm v. induction v as [|s|b|z|f|e|e l IH|e|e m IH|e|e y IH|] using gv_ind'; intros x H; inversion H; subst;
    try (constructor; fail); try (apply cl_coll; [constructor|intros k a []]); eauto.
  - match goal with F : Forall2 _ l ?u |- _ => apply cl_coll; [match goal with S : _ \/ _ |- _ => destruct S as [-> |(t & ->)]; constructor end|];
      intros k a J; clear H; revert F J; intros F J end.
    match goal with F : Forall2 _ l ?u |- _ => induction F as [|b c l' u' R F IHF]; [destruct J|] end.
    destruct J as [E|J]; [apply (IH b (or_introl eq_refl)); rewrite E in R; exact R|apply IHF; [intros d D; apply IH; right; exact D|exact J]].
  - apply cl_coll; [match goal with S : _ \/ _ |- _ => destruct S as [-> |(t & ->)]; constructor end|].
    intros k a J. match goal with N : NoDup (keys u), L : forall k y, lookup k u = Some y -> _ |- _ => destruct (L k a (In_lookup k a u N J)) as (k' & b & Jb & _ & R) end.
    exact (IH k' b Jb a R).
Qed.

(* The numbers of the two sides. *)
Definition stands_for_number (v : gv) (y : number) : Prop :=
  (exists z p, v = VInt z /\ y = Fin p (mkD z 0)) \/ (exists d p, v = VFloat (FFin d) /\ y = Fin p d) \/ (exists b, v = VFloat (FInf b) /\ y = Inf b).
Lemma stands_numbers : forall norm v x y, stands_for norm v x -> number_in y x -> exists w, part_of w v /\ stands_for_number w y.
Proof.
  intros norm v. induction v as [|s|b|z|f|e|e l IH|e|e m IH|e|e w IH|] using gv_ind'; intros x y H Y; inversion H; subst;
    try (inversion Y as [|? ? ? ? ? ? S J _]; subst; (inversion S; fail) || destruct J; fail).
  - eexists. split; [apply pa_self|]. inversion Y as [|? ? ? ? ? ? S]; subst; [left; eauto|inversion S].
  - eexists. split; [apply pa_self|]. inversion Y as [|? ? ? ? ? ? S]; subst; [right; left; eauto|inversion S].
  - eexists. split; [apply pa_self|]. inversion Y as [|? ? ? ? ? ? S]; subst; [right; right; eauto|inversion S].
  - assert (Z : exists k a, In (k, a) u /\ number_in y a).
    { inversion Y as [|? ? ? k a ? S J Ya]; subst; [|eauto]. match goal with S : _ \/ _ |- _ => destruct S as [E|(t & E)]; discriminate E end. }
    destruct Z as (k & a & J & Ya). clear H Y.
    match goal with F : Forall2 _ l u |- _ => rename F into F0 end.
    assert (X : exists b, In b l /\ stands_for norm b a).
    { clear IH. induction F0 as [|b c l' u' R F IHF]; [destruct J|]. destruct J as [E|J]; [exists b; subst c; split; [left; reflexivity|exact R]|].
      destruct (IHF J) as (d & D & S). exists d. split; [right; exact D|exact S]. }
    destruct X as (b & Jb & R). destruct (IH b Jb a y R Ya) as (w & W & N). exists w. split; [eapply pa_slice; eauto|exact N].
  - assert (Z : exists k a, In (k, a) u /\ number_in y a).
    { inversion Y as [|? ? ? k a ? S J Ya]; subst; [|eauto]. match goal with S : _ \/ _ |- _ => destruct S as [E|(t & E)]; discriminate E end. }
    destruct Z as (k & a & J & Ya).
    match goal with N : NoDup (keys u), L : forall k y, lookup k u = Some y -> _ |- _ => destruct (L k a (In_lookup k a u N J)) as (k' & b & Jb & _ & R) end.
    destruct (IH k' b Jb a y R Ya) as (w & W & N). exists w. split; [eapply pa_map; eauto|exact N].
  - match goal with R : stands_for norm w x |- _ => destruct (IH x y R Y) as (q & W & N) end. exists q. split; [apply pa_ptr; exact W|exact N].
Qed.

(* ----- C103: what functions return ----- *)

(* What a function returned never panics on its way to native data. *)
Theorem C103_back : forall norm pick v x p, perm pick -> go_to_cty norm v = Ok x -> value_to_native pick x <> Panic p.
Proof. intros norm pick v x p P H. apply C102_no_panic; [exact P|]. exact (stands_clear norm v x (C103_data norm v x H)). Qed.
Print Assumptions C103_back.

(* Without floats, and with integers that fit in 64 bits, it always gets there. *)
Theorem C103_back_integers : forall norm pick v x, perm pick -> go_to_cty norm v = Ok x ->
  (forall f, ~ part_of (VFloat f) v) -> (forall z, part_of (VInt z) v -> in_int64 z) ->
  exists n, value_to_native pick x = Ok n.
Proof.
  intros norm pick v x P H NF I. assert (S := C103_data norm v x H). apply C102_ok; [exact P|]. split; [exact (stands_clear norm v x S)|].
  intros y Y. destruct (stands_numbers norm v x y S Y) as (w & W & [(z & p & -> & ->)|[(d & p & -> & ->)|(b & -> & ->)]]);
    [|destruct (NF _ W)|destruct (NF _ W)].
  destruct (C34_int64_partial (mkD z 0) z) as (n & E & _); [unfold is_whole; cbn; ring|exact (I z W)|]. exists n. exact E.
Qed.
Print Assumptions C103_back_integers.
(* A negative fraction does not, though cty has it. *)
Theorem C103_back_refuted : forall norm pick, exists v x e, well v /\ go_to_cty norm v = Ok x /\ value_to_native pick x = Err e.
Proof. intros norm pick. exists (VFloat (FFin (mkD (-1) 1))). do 2 eexists. split; [constructor|]. split; reflexivity. Qed.
Print Assumptions C103_back_refuted.

Example C103_back_sample :
  let n := fun s : string => s in
  let v := VMap (GSlice GInt) (Some [("a", VSlice GInt (Some [VInt 1; VInt 2])); ("b", VSlice GInt None); ("c", VSlice GInt (Some []))]) in
  exists x, go_to_cty n v = Ok x /\
    value_to_native (fun l => l) x = Ok (NMap [("a", NList [NInt 1; NInt 2]); ("c", NNilList)]) /\ part_of (VInt 2) v.
Proof.
  eexists. split; [reflexivity|]. split; [reflexivity|].
  apply (pa_map _ _ "a" (VSlice GInt (Some [VInt 1; VInt 2]))); [cbn; auto|]. apply (pa_slice _ _ (VInt 2)); [cbn; auto|apply pa_self].
Qed.

(* The data of CtyModel.v as Go values: maps and slices of interfaces. *)
Inductive is_native : gv -> native -> Prop :=
| in_nil : is_native VNil NNil
| in_str s : is_native (VStr s) (NStr s)
| in_bool b : is_native (VBool b) (NBool b)
| in_int z : is_native (VInt z) (NInt z)
| in_int64 z : is_native (VInt z) (NInt64 z)
| in_f32 d : is_native (VFloat (FFin d)) (NF32 d)
| in_f64 d : is_native (VFloat (FFin d)) (NF64 d)
| in_inf : is_native (VFloat (FInf false)) NInf32
| in_map0 : is_native (VMap GIface None) NNilMap
| in_map m n : Forall2 (fun a b => fst a = fst b /\ is_native (snd a) (snd b)) m n -> is_native (VMap GIface (Some m)) (NMap n)
| in_list0 : is_native (VSlice GIface None) NNilList
| in_list l n : Forall2 is_native l n -> is_native (VSlice GIface (Some l)) (NList n).

Definition entry_known (a : string * value) (b : string * cval) : Prop := fst a = fst b /\ known_as (snd a) (snd b).
Lemma insert_known : forall k x c, known_as x c -> forall u w, Forall2 entry_known u w -> Forall2 entry_known (insert k x u) (insert k c w).
Proof.
  intros k x c K u w F. induction F as [|[a y] [b d] u w [E H] F IH]; cbn [insert]; [constructor; [split; [reflexivity|exact K]|constructor]|].
  cbn in E, H. subst b. destruct (eq_dec k a); (constructor; [split; cbn; auto|assumption]).
Qed.
Lemma fold_known : forall u w, Forall2 entry_known u w -> forall a b, Forall2 entry_known a b ->
  Forall2 entry_known (fold_left (fun m kv => insert (fst kv) (snd kv) m) u a) (fold_left (fun m kv => insert (fst kv) (snd kv) m) w b).
Proof.
  intros u w F. induction F as [|[k x] [k' c] u w [E H] F IH]; intros a b G; cbn [fold_left fst snd]; [exact G|].
  cbn in E, H. subst k'. apply IH. apply insert_known; assumption.
Qed.

(* On these it is the conversion of CtyModel.v. *)
Theorem C103_same : forall norm v n, is_native v n -> exists x, go_to_cty norm v = Ok x /\ known_as x (native_to_cty norm n).
Proof.
  intros norm v. induction v as [|s|b|z|f|e|e l IH|e|e m IH|e|e w IH|] using gv_ind'; intros n H; inversion H; subst;
    try (eexists; split; [reflexivity|constructor]; fail).
  - eexists. split; [reflexivity|]. apply ka_obj; [left; reflexivity|constructor].
  - eexists. split; [reflexivity|]. apply ka_tup; [left; reflexivity|constructor].
  - rename n0 into n, H3 into F. cbn [go_to_cty native_to_cty]. clear H.
    assert (X : exists u, all_results (map (fun x => ("", go_to_cty norm x)) l) = Ok u /\ Forall2 (fun a b => known_as (snd a) b) u (map (native_to_cty norm) n)).
    { induction F as [|a b l n R F IHF]; [exists []; split; [reflexivity|constructor]|]. cbn [map all_results].
      destruct (IH a (or_introl eq_refl) b R) as (x & -> & K). destruct IHF as (u & -> & G); [intros c C; apply IH; right; exact C|].
      cbn [bindr]. eexists. split; [reflexivity|]. constructor; assumption. }
    destruct X as (u & -> & G). cbn [bindr]. eexists. split; [reflexivity|]. apply ka_tup; [left; reflexivity|exact G].
  - eexists. split; [reflexivity|]. apply ka_obj; [left; reflexivity|constructor].
  - rename n0 into n, H3 into F. cbn [go_to_cty native_to_cty]. clear H.
    assert (X : exists u, all_results (map (fun kv => (norm (fst kv), go_to_cty norm (snd kv))) m) = Ok u /\
      Forall2 entry_known u (map (fun kv => (norm (fst kv), native_to_cty norm (snd kv))) n)).
    { induction F as [|[k a] [k' b] m n [E R] F IHF]; [exists []; split; [reflexivity|constructor]|]. cbn in E, R. subst k'. cbn [map all_results fst snd].
      destruct (IH k a (or_introl eq_refl) b R) as (x & -> & K). destruct IHF as (u & -> & G); [intros q c C; apply (IH q); right; exact C|].
      cbn [bindr]. eexists. split; [reflexivity|]. constructor; [split; [reflexivity|exact K]|exact G]. }
    destruct X as (u & -> & G). cbn [bindr]. eexists. split; [reflexivity|]. apply ka_obj; [left; reflexivity|].
    unfold put_all. apply fold_known; [exact G|constructor].
Qed.
Print Assumptions C103_same.
Example C103_same_sample :
  is_native (VMap GIface (Some [("a", VSlice GIface (Some [VInt 1; VNil])); ("b", VFloat (FInf false))]))
    (NMap [("a", NList [NInt 1; NNil]); ("b", NInf32)]).
Proof. apply in_map. repeat constructor. Qed.
