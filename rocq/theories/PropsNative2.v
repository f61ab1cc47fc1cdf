(* The order of Go maps does not change the native data. *)

From Verif Require Import Base CtyModel CtySpec FuncModel FuncProofs NativeModel PropsNative.

(* ----- specification ----- *)

(* The same native data, but for the order of the entries of maps, at any depth. *)
Inductive same_data : native -> native -> Prop :=
| sd_same n : same_data n n
| sd_list l l' : Forall2 same_data l l' -> same_data (NList l) (NList l')
| sd_map m p m' : Permutation m p -> Forall2 (fun a b => fst a = fst b /\ same_data (snd a) (snd b)) p m' ->
    same_data (NMap m) (NMap m').

(* ----- proofs ----- *)

Definition same_entry (a b : string * native) : Prop := fst a = fst b /\ same_data (snd a) (snd b).
Lemma nil_same : forall n n', same_data n n' -> n = NNil \/ n' = NNil -> n = NNil /\ n' = NNil.
Proof. intros n n' [x|l l' F|m p m' P F] [E|E]; subst; try discriminate E; auto. Qed.
Lemma keep_same : forall k n n' u u', same_data n n' -> Forall2 same_entry u u' ->
  Forall2 same_entry (match n with NNil => u | _ => (k, n) :: u end) (match n' with NNil => u' | _ => (k, n') :: u' end).
Proof.
  intros k n n' u u' S F. assert (Z := nil_same n n' S).
  assert (C : Forall2 same_entry ((k, n) :: u) ((k, n') :: u')) by (constructor; [split; [reflexivity|exact S]|exact F]).
  destruct n, n'; auto; try (destruct Z as [X Y]; [auto|discriminate]).
Qed.
Lemma collect_same : forall (f g : value -> result native) l,
  (forall k x, In (k, x) l -> forall n n', f x = Ok n -> g x = Ok n' -> same_data n n') ->
  forall u u', collect (map (fun kv => (fst kv, f (snd kv))) l) = Ok u -> collect (map (fun kv => (fst kv, g (snd kv))) l) = Ok u' -> Forall2 same_entry u u'.
Proof.
  intros f g l. induction l as [|[k x] l IH]; cbn [map collect fst snd]; intros H u u' E E'; [injection E as <-; injection E' as <-; constructor|].
  destruct (f x) as [n|q|q] eqn:F; cbn [bindr] in E; try discriminate E. destruct (collect (map (fun kv => (fst kv, f (snd kv))) l)) as [w|q|q]; cbn [bindr] in E; try discriminate E.
  destruct (g x) as [n'|q|q] eqn:G; cbn [bindr] in E'; try discriminate E'. destruct (collect (map (fun kv => (fst kv, g (snd kv))) l)) as [w'|q|q]; cbn [bindr] in E'; try discriminate E'.
  injection E as <-. injection E' as <-. apply keep_same; [exact (H k x (or_introl eq_refl) n n' F G)|].
  apply IH; auto. intros k' y J. apply (H k'). right. exact J.
Qed.
Lemma Forall2_perm : forall (A B : Type) (R : A -> B -> Prop) l l' m, Permutation l l' -> Forall2 R l m -> exists m', Permutation m m' /\ Forall2 R l' m'.
Proof.
  intros A B R l l' m P. revert m. induction P as [|x l l' P IH|x y l|l l' l'' P IH Q IH2]; intros m F.
  - exists m. auto.
  - inversion F as [|? b ? m0 Rx F0]; subst. destruct (IH m0 F0) as (m' & P' & F'). exists (b :: m'). split; [apply perm_skip; exact P'|constructor; assumption].
  - inversion F as [|? b ? m0 Ry F0]; subst. inversion F0 as [|? c ? m1 Rx F1]; subst. exists (c :: b :: m1). split; [apply perm_swap|repeat constructor; assumption].
  - destruct (IH m F) as (m' & P1 & F1). destruct (IH2 m' F1) as (m'' & P2 & F2). exists m''. split; [etransitivity; eassumption|exact F2].
Qed.

(* ----- C102: what becomes native data ----- *)

(* Whether a value is converted does not depend on the order of Go maps. *)
Theorem C102_order_ok : forall pick pick' v, perm pick -> perm pick' ->
  (exists n, value_to_native pick v = Ok n) <-> (exists n, value_to_native pick' v = Ok n).
Proof. intros pick pick' v P P'. rewrite (C102_ok pick v P), (C102_ok pick' v P'). reflexivity. Qed.
Print Assumptions C102_order_ok.

(* Nor do the data. *)
Theorem C102_order : forall pick pick' v n n', perm pick -> perm pick' ->
  value_to_native pick v = Ok n -> value_to_native pick' v = Ok n' -> same_data n n'.
Proof.
  intros pick pick' v n n' P P'. revert n n'. induction v as [ms s l IH] using value_ind'. intros n n' H H'. cbn [value_to_native] in H, H'.
  set (rs := map (fun kv => (fst kv, value_to_native pick (snd kv))) l) in *. set (rs' := map (fun kv => (fst kv, value_to_native pick' (snd kv))) l) in *.
  assert (L : list_native rs = Ok n -> list_native rs' = Ok n' -> same_data n n').
  { unfold list_native. intros A B. destruct (collect rs) as [u|q|q] eqn:E; cbn [bindr] in A; try discriminate A.
    destruct (collect rs') as [u'|q|q] eqn:E'; cbn [bindr] in B; try discriminate B. assert (F := collect_same _ _ l IH u u' E E').
    injection A as <-. injection B as <-. destruct F as [|a b u u' R F]; [constructor|]. apply sd_list. apply Forall2_cons; [exact (proj2 R)|].
    clear - F. induction F as [|a b u u' R F I]; constructor; [exact (proj2 R)|exact I]. }
  assert (M : map_native (pick rs) = Ok n -> map_native (pick' rs') = Ok n' -> same_data n n').
  { unfold map_native. intros A B. destruct (collect (pick rs)) as [u|q|q] eqn:E; cbn [bindr] in A; try discriminate A.
    destruct (collect (pick' rs')) as [u'|q|q] eqn:E'; cbn [bindr] in B; try discriminate B.
    destruct (collect_perm _ rs (Permutation_sym (P rs)) u E) as (w & Ew & Pw). destruct (collect_perm _ rs' (Permutation_sym (P' rs')) u' E') as (w' & Ew' & Pw').
    assert (F := collect_same _ _ l IH w w' Ew Ew').
    assert (Fs : Forall2 (fun b a => same_entry a b) w' w) by (clear - F; induction F; constructor; assumption).
    destruct (Forall2_perm _ _ _ w' u' w (Permutation_sym Pw') Fs) as (p & Pp & Fp).
    assert (Fq : Forall2 same_entry p u') by (clear - Fp; induction Fp; constructor; assumption).
    assert (Pu : Permutation u p) by (etransitivity; eassumption).
    injection A as <-. injection B as <-. destruct u as [|a u], u' as [|b u'].
    - constructor.
    - apply Permutation_nil in Pu. subst p. inversion Fq.
    - inversion Fq. subst p. symmetry in Pu. apply Permutation_nil in Pu. discriminate Pu.
    - exact (sd_map _ p _ Pu Fq). }
  assert (Eq : forall r : result native, r = Ok n -> r = Ok n' -> same_data n n') by (intros r A B; assert (n = n') by congruence; subst; constructor).
  destruct ms as [|m ms]; [|destruct s as [t q|t|x|y|b|t|t|t| |]; try discriminate H; [|exact (Eq _ H H')]; destruct (kind_of t); discriminate H].
  destruct s as [t q|t|x|y|b|t|t|t| |]; try exact (Eq _ H H'); auto.
Qed.
Print Assumptions C102_order.

Example C102_order_sample : same_data (NMap [("a", NInt 1); ("b", NMap [("c", NNilMap); ("d", NNilList)])]) (NMap [("b", NMap [("d", NNilList); ("c", NNilMap)]); ("a", NInt 1)]).
Proof.
  apply sd_map with (p := [("b", NMap [("c", NNilMap); ("d", NNilList)]); ("a", NInt 1)]); [apply perm_swap|].
  constructor; [split; [reflexivity|]|constructor; [split; [reflexivity|constructor]|constructor]].
  apply sd_map with (p := [("d", NNilList); ("c", NNilMap)]); [apply perm_swap|]. repeat constructor.
Qed.
