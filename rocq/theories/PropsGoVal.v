(* What functions written in Go return, as cty values. *)

From Verif Require Import Base CtyModel FuncModel FuncSpec GoValModel.

(* ----- specification ----- *)

(* The cty type of a Go type. *)
Inductive cty_type : gtyp -> ty -> Prop :=
| ct_string : cty_type GString str
| ct_bool : cty_type GBool boolt
| ct_int : cty_type GInt numt
| ct_float : cty_type GFloat numt
| ct_slice e t : cty_type e t -> cty_type (GSlice e) (list_of t)
| ct_map e t : cty_type e t -> cty_type (GMap e) (map_of t)
| ct_ptr e t : cty_type e t -> cty_type (GPtr e) t.

(* Go values: elements have the type of elements, any type if that is an interface. *)
Definition goes_in (e : gtyp) (x : gv) : Prop := e = GIface \/ type_of_gv x = e.
Inductive well : gv -> Prop :=
| we_nil : well VNil
| we_str s : well (VStr s)
| we_bool b : well (VBool b)
| we_int z : well (VInt z)
| we_float f : well (VFloat f)
| we_slice0 e : well (VSlice e None)
| we_slice e l : (forall x, In x l -> well x /\ goes_in e x) -> well (VSlice e (Some l))
| we_map0 e : well (VMap e None)
| we_map e m : (forall k x, In (k, x) m -> well x /\ goes_in e x) -> well (VMap e (Some m))
| we_ptr0 e : well (VPtr e None)
| we_ptr e x : well x -> goes_in e x -> well (VPtr e (Some x))
| we_other : well VOther.

(* A NaN somewhere. *)
Inductive nan_in : gv -> Prop :=
| na_self : nan_in (VFloat FNaN)
| na_slice e l x : In x l -> nan_in x -> nan_in (VSlice e (Some l))
| na_map e m k x : In (k, x) m -> nan_in x -> nan_in (VMap e (Some m))
| na_ptr e x : nan_in x -> nan_in (VPtr e (Some x)).

(* Slices and maps of interfaces. *)
Definition open_kind (k : gtyp) : Prop := k = GSlice GIface \/ k = GMap GIface.
(* A value without cty type, perhaps inside slices and maps of interfaces. *)
Inductive typeless : gv -> Prop :=
| tl_self v : v <> VNil -> ~ open_kind (type_of_gv v) -> (forall t, ~ cty_type (type_of_gv v) t) -> typeless v
| tl_slice l x : In x l -> typeless x -> typeless (VSlice GIface (Some l))
| tl_map m k x : In (k, x) m -> typeless x -> typeless (VMap GIface (Some m)).

(* nil, or a pointer to nil. *)
Inductive nothing : gv -> Prop :=
| no_slice e : nothing (VSlice e None)
| no_map e : nothing (VMap e None)
| no_ptr e : nothing (VPtr e None)
| no_deref e x : nothing x -> nothing (VPtr e (Some x)).

(* The same data.  Keys of one normal form fall together, one of their values being kept. *)
Inductive stands_for (norm : string -> string) : gv -> value -> Prop :=
| sf_nil : stands_for norm VNil (Val [] SObj [])
| sf_null v t : nothing v -> stands_for norm v (plain (SNull t))
| sf_slice0 : stands_for norm (VSlice GIface None) (Val [] STuple [])
| sf_map0 : stands_for norm (VMap GIface None) (Val [] SObj [])
| sf_str s : stands_for norm (VStr s) (str_val (norm s))
| sf_bool b : stands_for norm (VBool b) (bool_val b)
| sf_int z p : stands_for norm (VInt z) (num_val (Fin p (mkD z 0)))
| sf_float d p : stands_for norm (VFloat (FFin d)) (num_val (Fin p d))
| sf_inf b : stands_for norm (VFloat (FInf b)) (num_val (Inf b))
| sf_ptr e x y : stands_for norm x y -> stands_for norm (VPtr e (Some x)) y
| sf_slice e l s u : s = STuple \/ (exists t, s = SList t) -> Forall2 (fun x ky => stands_for norm x (snd ky)) l u ->
    stands_for norm (VSlice e (Some l)) (Val [] s u)
| sf_map e m s u : s = SObj \/ (exists t, s = SMap t) -> NoDup (keys u) ->
    (forall k y, lookup k u = Some y -> exists k' x, In (k', x) m /\ norm k' = k /\ stands_for norm x y) ->
    (forall k x, In (k, x) m -> exists y, lookup (norm k) u = Some y) ->
    stands_for norm (VMap e (Some m)) (Val [] s u).

(* ----- proofs ----- *)

Section GvInd.
Variable P : gv -> Prop.
Hypothesis Hnil : P VNil.
Hypothesis Hstr : forall s, P (VStr s).
Hypothesis Hbool : forall b, P (VBool b).
Hypothesis Hint : forall z, P (VInt z).
Hypothesis Hfloat : forall f, P (VFloat f).
Hypothesis Hslice0 : forall e, P (VSlice e None).
Hypothesis Hslice : forall e l, (forall x, In x l -> P x) -> P (VSlice e (Some l)).
Hypothesis Hmap0 : forall e, P (VMap e None).
Hypothesis Hmap : forall e m, (forall k x, In (k, x) m -> P x) -> P (VMap e (Some m)).
Hypothesis Hptr0 : forall e, P (VPtr e None).
Hypothesis Hptr : forall e x, P x -> P (VPtr e (Some x)).
Hypothesis Hother : P VOther.
Lemma gv_ind' : forall v, P v.
Proof.
  fix IH 1. intros [|s|b|z|f|e [l|]|e [m|]|e [x|]|].
  - exact Hnil.
  - apply Hstr.
  - apply Hbool.
  - apply Hint.
  - apply Hfloat.
  - apply Hslice. induction l as [|a l IHl]; [intros x []|]. intros x [E|J]; [rewrite <- E; apply IH|exact (IHl x J)].
  - apply Hslice0.
  - apply Hmap. induction m as [|[k0 a] m IHm]; [intros k x []|]. intros k x [E|J]; [injection E as _ E; rewrite <- E; apply IH|exact (IHm k x J)].
  - apply Hmap0.
  - apply Hptr. apply IH.
  - apply Hptr0.
  - exact Hother.
Qed.
End GvInd.

Lemma implied_spec : forall k t, implied k = Some t <-> cty_type k t.
Proof.
  intros k t. split.
  - revert t. induction k as [| | | | | |e IH|e IH|e IH]; cbn; intros t H; try discriminate H; try (injection H as <-; constructor).
    + destruct (implied e) as [u|]; [|discriminate H]. injection H as <-. constructor. auto.
    + destruct (implied e) as [u|]; [|discriminate H]. injection H as <-. constructor. auto.
    + constructor. auto.
  - induction 1 as [| | | |e t H IH|e t H IH|e t H IH]; cbn; try reflexivity; try (rewrite IH; reflexivity).
Qed.
Lemma implied_none : forall k, implied k = None -> forall t, ~ cty_type k t.
Proof. intros k H t C. apply implied_spec in C. congruence. Qed.
Lemma all_Ok : forall l, (exists u, all_results l = Ok u) <-> (forall k r, In (k, r) l -> exists x, r = Ok x).
Proof.
  induction l as [|[k r] l IH]; cbn [all_results].
  - split; [intros _ ? ? []|eauto].
  - split.
    + intros (u & H) k' r' [E|J].
      * injection E as <- <-. destruct r; cbn in H; try discriminate. eauto.
      * destruct r as [x|m|p]; cbn [bindr] in H; try discriminate. destruct (all_results l) as [w|m|p]; cbn in H; try discriminate.
        apply (proj1 IH (ex_intro _ w eq_refl) k' r' J).
    + intro H. destruct (H k r (or_introl eq_refl)) as (x & ->). cbn [bindr].
      destruct (proj2 IH) as (u & ->); [intros; eapply H; right; eassumption|]. cbn. eauto.
Qed.
Lemma all_Panic : forall l p, all_results l = Panic p -> exists k, In (k, Panic p) l.
Proof.
  induction l as [|[k r] l IH]; cbn [all_results]; intros p H; [discriminate|].
  destruct r as [x|m|q]; cbn [bindr] in H; try discriminate.
  - destruct (all_results l) as [w|m|q] eqn:E; cbn in H; try discriminate. injection H as ->.
    destruct (IH p eq_refl) as (k' & J). exists k'. right. exact J.
  - injection H as ->. exists k. left. reflexivity.
Qed.
Lemma all_In : forall l u k x, all_results l = Ok u -> In (k, x) u -> In (k, Ok x) l.
Proof.
  induction l as [|[k0 r] l IH]; cbn [all_results]; intros u k x H J; [injection H as <-; destruct J|].
  destruct r as [y|m|p]; cbn [bindr] in H; try discriminate H. destruct (all_results l) as [w|m|p]; cbn [bindr] in H; try discriminate H.
  injection H as <-. destruct J as [E|J]; [injection E as <- <-; left; reflexivity|right; eauto].
Qed.
Lemma In_insert : forall (a : string) (y : value) m k x, In (k, x) (insert a y m) -> (k, x) = (a, y) \/ In (k, x) m.
Proof.
  intros a y m k x. induction m as [|[b z] m IH]; cbn [insert]; [intros [E|[]]; auto|].
  destruct (eq_dec a b); intros [E|J]; auto; [right; right; exact J|right; left; exact E|]. destruct (IH J); auto. right. right. assumption.
Qed.
Lemma put_In : forall l m k x, In (k, x) (fold_left (fun m (kv : string * value) => insert (fst kv) (snd kv) m) l m) -> In (k, x) l \/ In (k, x) m.
Proof.
  induction l as [|[a y] l IH]; cbn [fold_left fst snd]; intros m k x J; [auto|].
  destruct (IH _ _ _ J) as [H|H]; [left; right; exact H|]. apply In_insert in H. destruct H as [H|H]; [left; left; congruence|auto].
Qed.
Lemma put_NoDup : forall l m, NoDup (keys m) -> NoDup (keys (fold_left (fun m (kv : string * value) => insert (fst kv) (snd kv) m) l m)).
Proof. induction l as [|[a y] l IH]; cbn [fold_left fst snd]; intros m N; [exact N|]. apply IH. apply NoDup_keys_insert. exact N. Qed.

Lemma tagged : forall (A : Type) (f : A -> result value) (name : A -> string) (l : list A) (Q : result value -> Prop),
  (forall k r, In (k, r) (map (fun x => (name x, f x)) l) -> Q r) <-> (forall x, In x l -> Q (f x)).
Proof.
  intros A f name l Q. split.
  - intros H x J. apply (H (name x)). apply in_map_iff. exists x. auto.
  - intros H k r J. apply in_map_iff in J. destruct J as (x & E & J). injection E as <- <-. auto.
Qed.
Lemma slice_Ok : forall (f : gv -> result value) l (w : list (string * value) -> value),
  (exists x, (do u <- all_results (map (fun x => ("", f x)) l); Ok (w u)) = Ok x) <-> (forall x, In x l -> exists y, f x = Ok y).
Proof.
  intros f l w. rewrite <- (tagged gv f (fun _ => "") l (fun r => exists y, r = Ok y)), <- all_Ok.
  destruct (all_results _); cbn [bindr]; split; intros (x & H); try discriminate H; eauto.
Qed.
Lemma map_Ok : forall norm (f : gv -> result value) (m : list (string * gv)) (w : list (string * value) -> value),
  (exists x, (do u <- all_results (map (fun kv => (norm (fst kv), f (snd kv))) m); Ok (w u)) = Ok x) <-> (forall k x, In (k, x) m -> exists y, f x = Ok y).
Proof.
  intros norm f m w. transitivity (forall kv, In kv m -> exists y, f (snd kv) = Ok y).
  - rewrite <- (tagged _ (fun kv => f (snd kv)) (fun kv => norm (fst kv)) m (fun r => exists y, r = Ok y)), <- all_Ok.
    destruct (all_results _); cbn [bindr]; split; intros (x & H); try discriminate H; eauto.
  - split; [intros H k x J; exact (H (k, x) J)|intros H [k x] J; exact (H k x J)].
Qed.
Lemma has_type : forall e x t, goes_in e x -> cty_type e t -> cty_type (type_of_gv x) t.
Proof. intros e x t [-> | <-] C; [inversion C|exact C]. Qed.
Lemma value_Ok : forall norm v t, well v -> cty_type (type_of_gv v) t -> (exists x, to_cty_value norm v = Ok x) <-> ~ nan_in v.
Proof.
  intros norm v. induction v as [|s|b|z|f|e|e l IH|e|e m IH|e|e x IH|] using gv_ind'; intros t W C; cbn [to_cty_value type_of_gv] in *.
  - inversion C.
  - split; [intros _ N; inversion N|eauto].
  - split; [intros _ N; inversion N|eauto].
  - split; [intros _ N; inversion N|eauto].
  - destruct f; split; try (intros _ N; inversion N; fail); eauto; [intros (x & H); discriminate H|intro N; destruct N; constructor].
  - split; [intros _ N; inversion N|eauto].
  - inversion C as [| | | |? u Cu| |]; subst. inversion W as [| | | | | |? ? We| | | | |]; subst. rewrite slice_Ok. split.
    + intros H N. inversion N as [|? ? x J Nx| |]; subst. destruct (We x J) as [Wx G]. apply (IH x J u Wx (has_type _ _ _ G Cu)); auto.
    + intros N x J. destruct (We x J) as [Wx G]. apply (IH x J u Wx (has_type _ _ _ G Cu)). intro Nx. apply N. econstructor; eauto.
  - split; [intros _ N; inversion N|eauto].
  - inversion C as [| | | | |? u Cu|]; subst. inversion W as [| | | | | | | |? ? We| | |]; subst. rewrite map_Ok. split.
    + intros H N. inversion N as [| |? ? k x J Nx|]; subst. destruct (We k x J) as [Wx G]. apply (IH k x J u Wx (has_type _ _ _ G Cu)); eauto.
    + intros N k x J. destruct (We k x J) as [Wx G]. apply (IH k x J u Wx (has_type _ _ _ G Cu)). intro Nx. apply N. econstructor; eauto.
  - split; [intros _ N; inversion N|eauto].
  - inversion C as [| | | | | |? u Cu]; subst. inversion W as [| | | | | | | | | |? ? Wx G|]; subst.
    rewrite (IH t Wx (has_type _ _ _ G Cu)). split; intros N M; apply N; [inversion M; assumption|constructor; assumption].
  - inversion C.
Qed.

(* ----- C103: what functions return ----- *)

(* The shape of NativeToCty: nil and slices and maps of interfaces, and the rest. *)
Lemma other_way : forall norm v, v <> VNil -> ~ open_kind (type_of_gv v) ->
  go_to_cty norm v = match implied (type_of_gv v) with None => Err "no cty.Type" | Some _ => to_cty_value norm v end.
Proof.
  intros norm v N O. destruct v as [|s|b|z|f|e o|e o|e o|]; try reflexivity; [contradiction| |];
    destruct e; try (destruct o; reflexivity); exfalso; apply O; unfold open_kind; cbn; auto.
Qed.
Lemma kinds : forall v, v = VNil \/ (exists o, v = VSlice GIface o) \/ (exists o, v = VMap GIface o) \/ (v <> VNil /\ ~ open_kind (type_of_gv v)).
Proof.
  intros [|s|b|z|f|e o|e o|e o|]; auto; try (right; right; right; split; [discriminate|intros [E|E]; discriminate E]);
    destruct e; eauto; right; right; right; (split; [discriminate|intros [E|E]; discriminate E]).
Qed.

(* A value is converted exactly if there is no NaN and nothing without type in it. *)
Theorem C103_ok : forall norm v, well v -> (exists x, go_to_cty norm v = Ok x) <-> ~ nan_in v /\ ~ typeless v.
Proof.
  intros norm v. assert (Rest : forall v, well v -> v <> VNil -> ~ open_kind (type_of_gv v) -> (exists x, go_to_cty norm v = Ok x) <-> ~ nan_in v /\ ~ typeless v).
  { intros w W N O. rewrite (other_way norm w N O). destruct (implied (type_of_gv w)) as [t|] eqn:I.
    - apply implied_spec in I. rewrite (value_Ok norm w t W I). split; [|tauto]. intro H. split; [exact H|]. intro T. inversion T; subst.
      + match goal with H : forall t, ~ cty_type _ t |- _ => exact (H t I) end.
      + apply O. left. reflexivity.
      + apply O. right. reflexivity.
    - split; [intros (x & H); discriminate H|]. intros [_ T]. destruct T. constructor; auto. apply implied_none. exact I. }
  induction v as [|s|b|z|f|e|e l IH|e|e m IH|e|e x IH|] using gv_ind'; intro W; try (apply Rest; [exact W|discriminate|intros [E|E]; discriminate E]).
  - split; [intros _; split; intro N; inversion N; subst; congruence|cbn; eauto].
  - destruct (kinds (VSlice e None)) as [E|[(o & E)|[(o & E)|(N & O)]]]; try discriminate E; [|apply Rest; assumption].
    injection E as -> _. cbn. split; [intros _; split; intro N; [inversion N|]; inversion N as [? A B C| |]; subst; apply B; left; reflexivity|eauto].
  - destruct (kinds (VSlice e (Some l))) as [E|[(o & E)|[(o & E)|(N & O)]]]; try discriminate E; [|apply Rest; assumption].
    injection E as -> _. cbn [go_to_cty]. rewrite slice_Ok. inversion W as [| | | | | |? ? We| | | | |]; subst. split.
    + intro H. split; intro N.
      * inversion N as [|? ? y J Ny| |]; subst. exact (proj1 (proj1 (IH y J (proj1 (We y J))) (H y J)) Ny).
      * inversion N as [? A B C|? y J Ty|]; subst; [apply B; left; reflexivity|]. exact (proj2 (proj1 (IH y J (proj1 (We y J))) (H y J)) Ty).
    + intros [N T] x J. apply (IH x J (proj1 (We x J))). split; intro X; [apply N; econstructor; eauto|apply T; eapply tl_slice; eauto].
  - destruct (kinds (VMap e None)) as [E|[(o & E)|[(o & E)|(N & O)]]]; try discriminate E; [|apply Rest; assumption].
    injection E as -> _. cbn. split; [intros _; split; intro N; [inversion N|]; inversion N as [? A B C| |]; subst; apply B; right; reflexivity|eauto].
  - destruct (kinds (VMap e (Some m))) as [E|[(o & E)|[(o & E)|(N & O)]]]; try discriminate E; [|apply Rest; assumption].
    injection E as -> _. cbn [go_to_cty]. rewrite map_Ok. inversion W as [| | | | | | | |? ? We| | |]; subst. split.
    + intro H. split; intro N.
      * inversion N as [| |? ? k y J Ny|]; subst. exact (proj1 (proj1 (IH k y J (proj1 (We k y J))) (H k y J)) Ny).
      * inversion N as [? A B C| |? k y J Ty]; subst; [apply B; right; reflexivity|]. exact (proj2 (proj1 (IH k y J (proj1 (We k y J))) (H k y J)) Ty).
    + intros [N T] k x J. apply (IH k x J (proj1 (We k x J))). split; intro X; [apply N; econstructor; eauto|apply T; eapply tl_map; eauto].
Qed.
Print Assumptions C103_ok.

Lemma slice_Panic : forall (f : gv -> result value) l (w : list (string * value) -> value) p,
  (do u <- all_results (map (fun x => ("", f x)) l); Ok (w u)) = Panic p -> exists x, In x l /\ f x = Panic p.
Proof.
  intros f l w p H. destruct (all_results _) as [u|m|q] eqn:E; cbn [bindr] in H; try discriminate H. injection H as ->.
  apply all_Panic in E. destruct E as (k & J). apply in_map_iff in J. destruct J as (x & X & J). exists x. split; [exact J|congruence].
Qed.
Lemma map_Panic : forall norm (f : gv -> result value) (m : list (string * gv)) (w : list (string * value) -> value) p,
  (do u <- all_results (map (fun kv => (norm (fst kv), f (snd kv))) m); Ok (w u)) = Panic p -> exists k x, In (k, x) m /\ f x = Panic p.
Proof.
  intros norm f m w p H. destruct (all_results _) as [u|e|q] eqn:E; cbn [bindr] in H; try discriminate H. injection H as ->.
  apply all_Panic in E. destruct E as (k & J). apply in_map_iff in J. destruct J as ([k' x] & X & J). cbn in X. exists k', x. split; [exact J|congruence].
Qed.
Lemma value_Panic : forall norm v p, to_cty_value norm v = Panic p -> nan_in v.
Proof.
  intros norm v. induction v as [|s|b|z|f|e|e l IH|e|e m IH|e|e x IH|] using gv_ind'; intros p H; cbn [to_cty_value] in H; try discriminate H.
  - destruct f; try discriminate H. constructor.
  - apply slice_Panic in H. destruct H as (x & J & X). econstructor; eauto.
  - apply map_Panic in H. destruct H as (k & x & J & X). econstructor; eauto.
  - constructor. eauto.
Qed.
(* Nothing but NaN panics. *)
Theorem C103_panic : forall norm v p, go_to_cty norm v = Panic p -> nan_in v.
Proof.
  intros norm v. induction v as [|s|b|z|f|e|e l IH|e|e m IH|e|e x IH|] using gv_ind'; intros p H;
    match type of H with go_to_cty _ ?v = _ => destruct (kinds v) as [E|[(o & E)|[(o & E)|(N & O)]]] end; try discriminate E;
    try (rewrite (other_way norm _ N O) in H; destruct (implied _); [exact (value_Panic norm _ p H)|discriminate H]); try discriminate H.
  - injection E as -> _. discriminate H.
  - injection E as -> _. cbn [go_to_cty] in H. apply slice_Panic in H. destruct H as (x & J & X). econstructor; eauto.
  - injection E as -> _. discriminate H.
  - injection E as -> _. cbn [go_to_cty] in H. apply map_Panic in H. destruct H as (k & x & J & X). econstructor; eauto.
Qed.
Print Assumptions C103_panic.

Lemma value_typed : forall norm v t x, well v -> cty_type (type_of_gv v) t -> to_cty_value norm v = Ok x -> typed x /\ type_of x = t.
Proof.
  assert (TD : forall k t, cty_type k t -> type_or_dyn k = t) by (intros k t C; apply implied_spec in C; unfold type_or_dyn; rewrite C; reflexivity).
  intros norm v. induction v as [|s|b|z|f|e|e l IH|e|e m IH|e|e y IH|] using gv_ind'; intros t x W C H; cbn [to_cty_value type_of_gv] in *.
  - inversion C.
  - inversion C; subst. injection H as <-. split; [constructor|reflexivity].
  - inversion C; subst. injection H as <-. split; [constructor|reflexivity].
  - inversion C; subst. assert (x = num_val (int_val z)) by congruence. subst x. split; [constructor|reflexivity].
  - inversion C; subst. destruct f; try discriminate H; injection H as <-; (split; [constructor|reflexivity]).
  - assert (E := TD _ _ C). assert (x = plain (SNull t)) by congruence. subst x. split; [constructor|reflexivity].
  - inversion C as [| | | |? u Cu| |]; subst. inversion W as [| | | | | |? ? We| | | | |]; subst. rewrite (TD e u Cu) in H.
    destruct (all_results _) as [r|q|q] eqn:E; cbn [bindr] in H; try discriminate H. injection H as <-. split; [|reflexivity].
    constructor. intros k y J. apply (all_In _ _ _ _ E) in J. apply in_map_iff in J. destruct J as (a & X & J). injection X as _ X.
    destruct (We a J) as [Wa G]. exact (IH a J u y Wa (has_type _ _ _ G Cu) X).
  - assert (E := TD _ _ C). assert (x = plain (SNull t)) by congruence. subst x. split; [constructor|reflexivity].
  - inversion C as [| | | | |? u Cu|]; subst. inversion W as [| | | | | | | |? ? We| | |]; subst. rewrite (TD e u Cu) in H.
    destruct (all_results _) as [r|q|q] eqn:E; cbn [bindr] in H; try discriminate H. injection H as <-. split; [|reflexivity].
    constructor; [apply put_NoDup; constructor|]. intros k y J. unfold put_all in J. apply put_In in J. destruct J as [J|[]].
    apply (all_In _ _ _ _ E) in J. apply in_map_iff in J. destruct J as ([k' a] & X & J). cbn in X. injection X as _ X.
    destruct (We k' a J) as [Wa G]. exact (IH k' a J u y Wa (has_type _ _ _ G Cu) X).
  - assert (E := TD _ _ C). assert (x = plain (SNull t)) by congruence. subst x. split; [constructor|reflexivity].
  - inversion C as [| | | | | |? u Cu]; subst. inversion W as [| | | | | | | | | |? ? Wx G|]; subst. exact (IH t x Wx (has_type _ _ _ G Cu) H).
  - inversion C.
Qed.
(* The value has the cty type of the Go type, if there is one; all values are well formed. *)
Theorem C103_type : forall norm v x, well v -> go_to_cty norm v = Ok x ->
  typed x /\ forall t, cty_type (type_of_gv v) t -> type_of x = t.
Proof.
  intros norm v. induction v as [|s|b|z|f|e|e l IH|e|e m IH|e|e y IH|] using gv_ind'; intros x W H;
    match type of H with go_to_cty _ ?v = _ => destruct (kinds v) as [E|[(o & E)|[(o & E)|(N & O)]]] end; try discriminate E;
    try (rewrite (other_way norm _ N O) in H; destruct (implied _) as [t|] eqn:I; [|discriminate H]; apply implied_spec in I;
      destruct (value_typed norm _ t x W I H) as [A B]; split; [exact A|]; intros t' C'; apply implied_spec in C'; apply implied_spec in I; congruence).
  - injection H as <-. split; [constructor; [constructor|intros ? ? []]|intros t C; inversion C].
  - injection E as -> _. injection H as <-. split; [constructor; intros ? ? []|intros t C; inversion C as [| | | |? ? Ci| |]; inversion Ci].
  - injection E as -> _. inversion W as [| | | | | |? ? We| | | | |]; subst. split; [|intros t C; inversion C as [| | | |? ? Ci| |]; inversion Ci].
    cbn [go_to_cty] in H. destruct (all_results _) as [r|q|q] eqn:E; cbn [bindr] in H; try discriminate H. injection H as <-.
    constructor. intros k y J. apply (all_In _ _ _ _ E) in J. apply in_map_iff in J. destruct J as (a & X & J). injection X as _ X.
    exact (proj1 (IH a J y (proj1 (We a J)) X)).
  - injection E as -> _. injection H as <-. split; [constructor; [constructor|intros ? ? []]|intros t C; inversion C as [| | | | |? ? Ci|]; inversion Ci].
  - injection E as -> _. inversion W as [| | | | | | | |? ? We| | |]; subst. split; [|intros t C; inversion C as [| | | | |? ? Ci|]; inversion Ci].
    cbn [go_to_cty] in H. destruct (all_results _) as [r|q|q] eqn:E; cbn [bindr] in H; try discriminate H. injection H as <-.
    constructor; [apply put_NoDup; constructor|]. intros k y J. unfold put_all in J. apply put_In in J. destruct J as [J|[]].
    apply (all_In _ _ _ _ E) in J. apply in_map_iff in J. destruct J as ([k' a] & X & J). cbn in X. injection X as _ X.
    exact (proj1 (IH k' a J y (proj1 (We k' a J)) X)).
Qed.
Print Assumptions C103_type.

(* null is nil of a type of its own, or a pointer to that; nil slices and maps of interfaces are not. *)
Theorem C103_null : forall norm v x, go_to_cty norm v = Ok x ->
  (is_null x = true <-> nothing v /\ ~ open_kind (type_of_gv v)).
Proof.
  assert (V : forall norm v x, to_cty_value norm v = Ok x -> (is_null x = true <-> nothing v)).
  { intros norm v. induction v as [|s|b|z|f|e|e l IH|e|e m IH|e|e y IH|] using gv_ind'; intros x H; cbn [to_cty_value] in H; try discriminate H.
    - injection H as <-. split; [discriminate|intro N; inversion N].
    - injection H as <-. split; [discriminate|intro N; inversion N].
    - assert (x = num_val (int_val z)) by congruence. subst. split; [discriminate|intro N; inversion N].
    - destruct f; try discriminate H; injection H as <-; (split; [discriminate|intro N; inversion N]).
    - injection H as <-. split; [constructor|reflexivity].
    - destruct (all_results _); try discriminate H. injection H as <-. split; [discriminate|intro N; inversion N].
    - injection H as <-. split; [constructor|reflexivity].
    - destruct (all_results _); try discriminate H. injection H as <-. split; [discriminate|intro N; inversion N].
    - injection H as <-. split; [constructor|reflexivity].
    - rewrite (IH x H). split; [constructor; assumption|intro N; inversion N; assumption]. }
  intros norm v x H. destruct (kinds v) as [->|[(o & ->)|[(o & ->)|(N & O)]]].
  - injection H as <-. split; [discriminate|intros [N _]; inversion N].
  - split; [|intros [_ O]; destruct O; left; reflexivity]. cbn in H. destruct o; [destruct (all_results _); try discriminate H|]; injection H as <-; discriminate.
  - split; [|intros [_ O]; destruct O; right; reflexivity]. cbn in H. destruct o; [destruct (all_results _); try discriminate H|]; injection H as <-; discriminate.
  - rewrite (other_way norm v N O) in H. destruct (implied _); [|discriminate H]. rewrite (V norm v x H). tauto.
Qed.
Print Assumptions C103_null.

Lemma put_kept : forall l m k, (exists y, In (k, y) l) \/ (exists y, lookup k m = Some y) ->
  exists y, lookup k (fold_left (fun m (kv : string * value) => insert (fst kv) (snd kv) m) l m) = Some y.
Proof.
  induction l as [|[a z] l IH]; cbn [fold_left fst snd]; intros m k H; [destruct H as [(y & [])|H]; exact H|].
  apply IH. destruct H as [(y & [E|J])|(y & L)]; [injection E as -> _; right; exists z; apply lookup_insert_eq|left; eauto|].
  right. destruct (eq_dec k a) as [->|N]; [exists z; apply lookup_insert_eq|exists y; rewrite lookup_insert_ne by exact N; exact L].
Qed.
Lemma all_there : forall l u k r, all_results l = Ok u -> In (k, r) l -> exists y, In (k, y) u.
Proof.
  induction l as [|[k0 r0] l IH]; cbn [all_results]; intros u k r H J; [destruct J|].
  destruct r0 as [y|m|p]; cbn [bindr] in H; try discriminate H. destruct (all_results l) as [w|m|p]; cbn [bindr] in H; try discriminate H.
  injection H as <-. destruct J as [E|J]; [injection E as -> _; exists y; left; reflexivity|]. destruct (IH w k r eq_refl J) as (z & Z). exists z. right. exact Z.
Qed.
Lemma slice_data : forall norm (f : gv -> result value) e s l x, s = STuple \/ (exists t, s = SList t) ->
  (forall a, In a l -> forall y, f a = Ok y -> stands_for norm a y) ->
  (do u <- all_results (map (fun x => ("", f x)) l); Ok (Val [] s u)) = Ok x -> stands_for norm (VSlice e (Some l)) x.
Proof.
  intros norm f e s l x S F H. destruct (all_results _) as [u|m|p] eqn:E; cbn [bindr] in H; try discriminate H. injection H as <-.
  apply sf_slice; [exact S|]. clear S. revert u E. induction l as [|a l IH]; cbn [map all_results]; intros u E; [injection E as <-; constructor|].
  destruct (f a) as [y|m|p] eqn:Fa; cbn [bindr] in E; try discriminate E. destruct (all_results _) as [w|m|p]; cbn [bindr] in E; try discriminate E.
  injection E as <-. constructor; [apply (F a (or_introl eq_refl) y Fa)|]. apply IH; [intros b J; apply F; right; exact J|reflexivity].
Qed.
Lemma map_data : forall norm (f : gv -> result value) e s m x, s = SObj \/ (exists t, s = SMap t) ->
  (forall k a, In (k, a) m -> forall y, f a = Ok y -> stands_for norm a y) ->
  (do u <- all_results (map (fun kv => (norm (fst kv), f (snd kv))) m); Ok (Val [] s (put_all u))) = Ok x -> stands_for norm (VMap e (Some m)) x.
Proof.
  intros norm f e s m x S F H. destruct (all_results _) as [u|q|q] eqn:E; cbn [bindr] in H; try discriminate H. injection H as <-.
  apply sf_map; [exact S|apply put_NoDup; constructor| |].
  - intros k y L. apply lookup_In in L. apply put_In in L. destruct L as [J|[]]. apply (all_In _ _ _ _ E) in J. apply in_map_iff in J.
    destruct J as ([k' a] & X & J). cbn in X. injection X as <- X. exists k', a. repeat split; [exact J|]. exact (F k' a J y X).
  - intros k a J. apply put_kept. left. apply (all_there _ _ _ (f a) E). apply in_map_iff. exists (k, a). auto.
Qed.
(* The value has the data. *)
Theorem C103_data : forall norm v x, go_to_cty norm v = Ok x -> stands_for norm v x.
Proof.
  assert (V : forall norm v x, to_cty_value norm v = Ok x -> stands_for norm v x).
  { intros norm v. induction v as [|s|b|z|f|e|e l IH|e|e m IH|e|e y IH|] using gv_ind'; intros x H; cbn [to_cty_value] in H; try discriminate H.
    - injection H as <-. constructor.
    - injection H as <-. constructor.
    - assert (x = num_val (Fin 64 (mkD z 0))) by (unfold int_val in H; congruence). subst x. constructor.
    - destruct f; try discriminate H; injection H as <-; constructor.
    - injection H as <-. apply sf_null. constructor.
    - eapply slice_data; [right; eauto|exact IH|exact H].
    - injection H as <-. apply sf_null. constructor.
    - eapply map_data; [right; eauto|exact IH|exact H].
    - injection H as <-. apply sf_null. constructor.
    - apply sf_ptr. exact (IH x H). }
  intros norm v. induction v as [|s|b|z|f|e|e l IH|e|e m IH|e|e y IH|] using gv_ind'; intros x H;
    match type of H with go_to_cty _ ?v = _ => destruct (kinds v) as [E|[(o & E)|[(o & E)|(N & O)]]] end; try discriminate E;
    try (rewrite (other_way norm _ N O) in H; destruct (implied _) as [t|]; [exact (V norm _ x H)|discriminate H]).
  - injection H as <-. constructor.
  - injection E as -> _. injection H as <-. constructor.
  - injection E as -> _. cbn [go_to_cty] in H. eapply slice_data; [left; reflexivity|exact IH|exact H].
  - injection E as -> _. injection H as <-. constructor.
  - injection E as -> _. cbn [go_to_cty] in H. eapply map_data; [left; reflexivity|exact IH|exact H].
Qed.
Print Assumptions C103_data.

(* So it is false that every value is converted or refused: NaN panics. *)
Theorem C103_refuted : forall norm, exists v, well v /\ exists p, go_to_cty norm v = Panic p.
Proof. intro norm. exists (VFloat FNaN). split; [constructor|eexists; reflexivity]. Qed.
Print Assumptions C103_refuted.
(* And that the type makes no difference: a nil slice of texts is null, one of interfaces is empty. *)
Theorem C103_nil_refuted : forall norm, exists x y, go_to_cty norm (VSlice GString None) = Ok x /\ go_to_cty norm (VSlice GIface None) = Ok y /\
  is_null x = true /\ is_null y = false.
Proof. intro norm. do 2 eexists. repeat split; reflexivity. Qed.
Print Assumptions C103_nil_refuted.

Example C103_sample :
  let n := fun s : string => s in
  go_to_cty n (VMap GIface (Some [("a", VSlice GString (Some [VStr "x"; VStr "y"])); ("b", VNil); ("c", VPtr GInt (Some (VInt 3)))])) =
    Ok (Val [] SObj [("a", list_val str [str_val "x"; str_val "y"]); ("b", Val [] SObj []); ("c", num_val (int_val 3))]) /\
  go_to_cty n (VSlice (GMap GIface) (Some [])) = Err "no cty.Type" /\
  typeless (VSlice (GMap GIface) (Some [])) /\
  go_to_cty n (VSlice (GSlice GInt) (Some [VSlice GInt None])) = Ok (Val [] (SList (list_of numt)) [("", plain (SNull (list_of numt)))]) /\
  nan_in (VSlice GIface (Some [VStr "x"; VFloat FNaN])).
Proof.
  cbv zeta. repeat split; try reflexivity.
  - constructor; [discriminate|intros [E|E]; discriminate E|]. intros t C. cbn in C. inversion C as [| | | |? ? C2| |]; subst.
    inversion C2 as [| | | | |? ? C3|]; subst. inversion C3.
  - apply na_slice with (x := VFloat FNaN); [cbn; auto|constructor].
Qed.
