(* Proofs about one, sum and matchkeys. *)

From Verif Require Import Base CtyModel FuncModel FuncSpec FuncProofs.
From Coq Require Import Lia ZArith.
Local Open Scope Z_scope.

(* One argument of any type, known and not null. *)
Lemma call_any1 : forall early ft impl v, is_null v = false -> is_known v = true ->
  kind_eqb (kind_of (type_of v)) KDyn = false ->
  call early (mkFunc [any_param] None ft impl) [v]
  = (do t <- no_panic (ft [unmark_deep v]); do r <- no_panic (impl [unmark_deep v] t); Ok (with_marks (deep_marks v) r)).
Proof.
  intros early ft impl v N K D. unfold call. cbn [f_params f_var pair_args check_args].
  rewrite N, D. cbn [andb p_type any_param]. rewrite conforms_dyn.
  cbn [negb bindr map f_type f_impl existsb]. unfold unknown_arg. cbn [fst snd]. rewrite K. cbn [negb andb orb flat_map].
  unfold seen, taken_marks. cbn [fst snd p_marked any_param]. rewrite app_nil_r. reflexivity.
Qed.

(* ----- sums ----- *)

Definition scaled (K : nat) (d : dyadic) : Z := num d * pow2 (K - den d).
Fixpoint total (K : nat) (ds : list dyadic) : Z := match ds with [] => 0 | d :: ds => scaled K d + total K ds end.
Fixpoint magnitude (K : nat) (ds : list dyadic) : Z :=
  match ds with [] => 0 | d :: ds => Z.abs (scaled K d) + magnitude K ds end.

Lemma pow2_ge : forall k, 1 <= pow2 k.
Proof. intros k. unfold pow2. assert (0 < 2 ^ Z.of_nat k) by (apply Z.pow_pos_nonneg; lia). lia. Qed.
Lemma pow2_split : forall a b c, (c <= b)%nat -> (b <= a)%nat -> pow2 (a - c) = pow2 (a - b) * pow2 (b - c).
Proof.
  intros a b c H1 H2. unfold pow2. rewrite <- Z.pow_add_r by lia. f_equal. lia.
Qed.
Lemma magnitude_nonneg : forall K ds, 0 <= magnitude K ds.
Proof. induction ds as [|d ds IH]; cbn; lia. Qed.

Lemma round_exact : forall p d P, P <= p -> Z.abs (num d) < 2 ^ P -> round_prec p d = d.
Proof.
  intros p [n k] P Hp H. cbn [num] in H. unfold round_prec. cbn [num den]. f_equal.
  destruct (Z.eq_dec n 0) as [->|Nz]; [reflexivity|].
  assert (Ha : 0 < Z.abs n) by lia.
  assert (L : Z.log2 (Z.abs n) < P).
  { apply Z.log2_lt_pow2; [exact Ha|exact H]. }
  unfold round_mantissa. replace (Z.log2 (Z.abs n) + 1 - p <=? 0) with true by (symmetry; apply Z.leb_le; lia).
  rewrite Z.mul_comm. apply Z.abs_sgn.
Qed.

Lemma add_scaled : forall K a b, (den a <= K)%nat -> (den b <= K)%nat ->
  (den (add_dyadic a b) <= K)%nat /\ scaled K (add_dyadic a b) = scaled K a + scaled K b.
Proof.
  intros K a b Ha Hb. unfold scaled, add_dyadic. cbn [num den]. split; [lia|].
  rewrite (pow2_split K (Nat.max (den a) (den b)) (den a)) by lia.
  rewrite (pow2_split K (Nat.max (den a) (den b)) (den b)) by lia. ring.
Qed.
Lemma num_le_scaled : forall K d, Z.abs (num d) <= Z.abs (scaled K d).
Proof. intros K d. unfold scaled. rewrite Z.abs_mul. assert (G := pow2_ge (K - den d)). rewrite (Z.abs_eq (pow2 _)) by lia. nia. Qed.

Section Sums.
Variable convert : value -> ty -> result value.
Hypothesis numbers_stay : forall n, convert (Val [] (SNum n) []) numt = Ok (Val [] (SNum n) []).

Definition numbers (P : Z) (l : list (string * value)) (ds : list dyadic) : Prop :=
  Forall2 (fun kv d => exists ms p, snd kv = Val ms (SNum (Fin p d)) [] /\ P <= p) l ds.

Lemma sum_from_exact : forall K P l ds, numbers P l ds -> (forall d, In d ds -> (den d <= K)%nat) ->
  forall p x, P <= p -> (den x <= K)%nat -> Z.abs (scaled K x) + magnitude K ds < 2 ^ P ->
  exists q e, sum_from convert (Fin p x) (unmark_all l) = Ok (Fin q e) /\ (den e <= K)%nat
    /\ scaled K e = scaled K x + total K ds.
Proof.
  intros K P l ds F. induction F as [|[k v] d l ds (ms & p' & E & Hp') F IH]; intros Hd p x Hp Hx B.
  - exists p, x. split; [reflexivity|]. split; [exact Hx|cbn; lia].
  - cbn [snd] in E. subst v. cbn [unmark_all map fst snd unmark_deep sum_from].
    unfold to_number at 1. cbn [is_null shape_of]. rewrite numbers_stay. cbn [bindr add_number].
    assert (Hdd : (den d <= K)%nat) by (apply Hd; left; reflexivity).
    destruct (add_scaled K x d Hx Hdd) as [Ds Es]. cbn [magnitude] in B. assert (M := magnitude_nonneg K ds).
    assert (Ba : Z.abs (scaled K (add_dyadic x d)) + magnitude K ds < 2 ^ P) by (rewrite Es; lia).
    rewrite (round_exact _ (add_dyadic x d) P).
    + destruct (IH (fun d I => Hd d (or_intror I)) (Z.max p p') (add_dyadic x d)) as (q & e & R & De & T); [lia|exact Ds|exact Ba|].
      exists q, e. split; [exact R|]. split; [exact De|]. rewrite T, Es. cbn [total]. lia.
    + lia.
    + assert (X := num_le_scaled K (add_dyadic x d)). lia.
Qed.

(* Finite numbers always have a sum. *)
Lemma sum_from_ok : forall P l ds, numbers P l ds -> forall p x, exists q e,
  sum_from convert (Fin p x) (unmark_all l) = Ok (Fin q e).
Proof.
  intros P l ds F. induction F as [|[k v] d l ds Hv F IH]; intros p x; [exists p, x; reflexivity|].
  destruct Hv as (ms & p' & E & Hp').
  cbn [snd] in E. subst v. cbn [unmark_all map fst snd unmark_deep sum_from].
  unfold to_number at 1. cbn [is_null shape_of]. rewrite numbers_stay. cbn [bindr add_number]. apply IH.
Qed.

Lemma numbers_known : forall P ms s l ds, (s = STuple \/ exists t, s = SList t \/ s = SSet t) ->
  numbers P l ds -> wholly_known (Val ms s l) = true.
Proof.
  intros P ms s l ds Hs F.
  assert (G : (fix go l := match l with [] => true | (_, x) :: l => wholly_known x && go l end) l = true).
  { induction F as [|[k v] d l ds (ms0 & p & E & _) F IH]; [reflexivity|]. cbn [snd] in E. subst v. exact IH. }
  destruct Hs as [->|(t & [->| ->])]; exact G.
Qed.

Definition sequence (s : shape) : Prop := s = STuple \/ exists t, s = SList t \/ s = SSet t.

Lemma call_sum : forall early ms s l, sequence s -> wholly_known (Val ms s l) = true ->
  call early (sum_func convert) [Val ms s l]
  = match unmark_all l with
    | [] => Err "cannot sum an empty list"
    | (_, x) :: r =>
      do y <- no_panic (do s <- to_number convert x; do t <- sum_from convert s r; Ok (num_val t));
      Ok (with_marks (deep_marks (Val ms s l)) y)
    end.
Proof.
  intros early ms s l Hs W. unfold sum_func.
  rewrite call_any1; try (destruct Hs as [->|(t & [->| ->])]; reflexivity).
  cbn [static no_panic bindr]. rewrite known_unmark, W. rewrite unmark_deep_eq.
  destruct Hs as [->|(t & [->| ->])]; cbn [iterate shape_of negb]; destruct (unmark_all l) as [|[k x] r]; reflexivity.
Qed.

Lemma to_number_number : forall n, to_number convert (Val [] (SNum n) []) = Ok n.
Proof. intros n. unfold to_number. cbn [is_null shape_of]. rewrite numbers_stay. reflexivity. Qed.

End Sums.

Lemma sum_from_bad : forall convert k x l, (forall n, to_number convert x <> Ok n) -> In (k, x) l ->
  forall n r, sum_from convert n l <> Ok r.
Proof.
  intros convert k x l B. induction l as [|[k' y] l IH]; intros I n r; [destruct I|]. cbn [sum_from].
  destruct I as [X|I].
  - injection X as -> ->. destruct (to_number convert x) as [m|e|e] eqn:E; cbn [bindr]; try discriminate. exfalso. exact (B m eq_refl).
  - destruct (to_number convert y) as [m|e|e]; cbn [bindr]; try discriminate. destruct (add_number n m); [|discriminate].
    apply IH; assumption.
Qed.

(* ----- one ----- *)

Lemma call_one : forall early ms s l, sequence s -> wholly_known (Val ms s l) = true ->
  match l with
  | [] => exists r t, call early one_func [Val ms s l] = Ok r /\ shape_of r = SNull t
  | [(_, x)] => exists r, call early one_func [Val ms s l] = Ok r /\ shape_of r = shape_of x
                 /\ elems r = elems (unmark_deep x) /\ forall m, In m (deep_marks (Val ms s l)) -> In m (marks_of r)
  | _ => exists e, call early one_func [Val ms s l] = Err e
  end.
Proof.
  intros early ms s l Hs W. unfold one_func.
  rewrite call_any1; try (destruct Hs as [->|(t & [->| ->])]; reflexivity).
  assert (W' : wholly_known (Val [] s (unmark_all l)) = true) by (rewrite <- (unmark_deep_eq ms), known_unmark; exact W).
  rewrite unmark_deep_eq. unfold length_val. cbn [shape_of marks_of elems]. rewrite W'. cbn [negb andb].
  destruct l as [|[k x] [|[k' y] l]]; cbn [unmark_all map fst snd].
  - destruct Hs as [->|(t & [->| ->])]; do 2 eexists; (split; [reflexivity|]); reflexivity.
  - destruct Hs as [->|(t & [->| ->])]; eexists; (split; [reflexivity|]); rewrite shape_with, elems_with, shape_unmark_deep;
      (split; [reflexivity|]); (split; [reflexivity|]); intros m I; apply marks_with; right; exact I.
  - destruct Hs as [->|(t & [->| ->])]; eexists; reflexivity.
Qed.

(* ----- matchkeys ----- *)

Lemma any_equal_spec : forall sn k set, typed k -> settled k -> (forall n s, In (n, s) set -> typed s /\ settled s) ->
  (any_equal sn k set = Some true /\ exists n s, In (n, s) set /\ equal_values sn k s)
  \/ (any_equal sn k set = Some false /\ forall n s, In (n, s) set -> ~ equal_values sn k s).
Proof.
  intros sn k set Tk Sk. induction set as [|[n s] set IH]; intros H.
  - right. split; [reflexivity|intros n s []].
  - destruct (H n s (or_introl eq_refl)) as [Ts Ss]. destruct (equals_spec sn k s Tk Sk Ts Ss) as (b & E & B).
    cbn [any_equal]. rewrite E. destruct b.
    + left. split; [reflexivity|]. exists n, s. split; [left; reflexivity|tauto].
    + destruct (IH (fun n s I => H n s (or_intror I))) as [(R & n' & s' & I & Q)|(R & F)].
      * left. split; [exact R|]. exists n', s'. split; [right; exact I|exact Q].
      * right. split; [exact R|]. intros n' s' [X|I] Q; [injection X as <- <-; apply B in Q; discriminate|exact (F n' s' I Q)].
Qed.

Lemma matching_spec : forall sn set ks vs, (forall n s, In (n, s) set -> typed s /\ settled s) ->
  (forall n s, In (n, s) ks -> typed s /\ settled s) -> List.length ks = List.length vs ->
  exists out, matching sn ks set vs = Some out /\ selected sn set ks vs out.
Proof.
  intros sn set ks. induction ks as [|[n k] ks IH]; intros [|v vs] Hs Hk L; try discriminate.
  - exists []. split; [reflexivity|constructor].
  - destruct (Hk n k (or_introl eq_refl)) as [Tk Sk].
    destruct (IH vs Hs (fun n s I => Hk n s (or_intror I))) as (out & R & S); [cbn in L; lia|].
    cbn [matching]. destruct (any_equal_spec sn k set Tk Sk Hs) as [(E & X)|(E & X)]; rewrite E, R.
    + exists (v :: out). split; [reflexivity|]. apply sel_in; assumption.
    + exists out. split; [reflexivity|]. apply sel_out; assumption.
Qed.

Lemma selected_empty : forall sn ks vs out, selected sn [] ks vs out -> out = [].
Proof. intros sn ks vs out S. induction S as [|n k ks v vs out (n' & s & [] & _) S IH|]; [reflexivity|exact IHS]. Qed.

Lemma select_none : forall sn ks vs, List.length ks = List.length vs -> selected sn [] ks vs [].
Proof.
  intros sn. induction ks as [|[n k] ks IH]; intros [|v vs] L; try discriminate; [constructor|].
  apply sel_out; [intros n' s []|apply IH; cbn in L; lia].
Qed.

Lemma conforms_list : forall t, conforms (list_of t) (list_of dyn) = true.
Proof. intros [k l]. reflexivity. Qed.

Lemma call_lists : forall early ft impl mv mk ms tv tk ts vs ks ss,
  let v := Val mv (SList tv) vs in let k := Val mk (SList tk) ks in let s := Val ms (SList ts) ss in
  let p := plain_param (list_of dyn) in
  call early (mkFunc [p; p; p] None ft impl) [v; k; s]
  = (do t <- no_panic (ft [unmark_deep v; unmark_deep k; unmark_deep s]);
     do r <- no_panic (impl [unmark_deep v; unmark_deep k; unmark_deep s] t);
     Ok (with_marks (deep_marks v ++ deep_marks k ++ deep_marks s) r)).
Proof.
  intros early ft impl mv mk ms tv tk ts vs ks ss v k s p. unfold call. cbn [f_params f_var pair_args check_args].
  change (is_null v) with false. change (is_null k) with false. change (is_null s) with false.
  change (type_of v) with (list_of tv). change (type_of k) with (list_of tk). change (type_of s) with (list_of ts).
  cbn [andb p_type p plain_param]. rewrite !conforms_list. cbn [kind_eqb kind_of list_of negb bindr].
  cbn [map existsb f_type f_impl flat_map]. unfold unknown_arg, seen, taken_marks. cbn [fst snd p_marked p plain_param].
  change (is_known v) with true. change (is_known k) with true. change (is_known s) with true. cbn [negb andb orb].
  rewrite app_nil_r. reflexivity.
Qed.
