(* Shared helpers: results with errors and panics, association lists standing for
   Go maps, and small list/string lemmas.  Nothing here models a particular Go
   function; the model files cite the source they follow. *)

From Coq Require Export String Ascii List Arith ZArith Lia Bool Permutation.
Export ListNotations.
Global Open Scope string_scope.
Global Open Scope list_scope.
Global Open Scope nat_scope.

(* ---------------------------------------------------------------- results *)

(* What a Go call can do: return normally, return a non-nil error, or panic. *)
Inductive result (A : Type) : Type :=
| Ok (a : A)
| Err (msg : string)
| Panic (msg : string).
Arguments Ok {A} a.
Arguments Err {A} msg.
Arguments Panic {A} msg.

Definition bindr {A B} (r : result A) (f : A -> result B) : result B :=
  match r with
  | Ok a => f a
  | Err m => Err m
  | Panic m => Panic m
  end.
Notation "'do' x <- r ; k" := (bindr r (fun x => k))
  (at level 200, x pattern, r at level 100, k at level 200, right associativity).

Definition is_ok {A} (r : result A) : bool := match r with Ok _ => true | _ => false end.

Lemma bindr_Ok : forall A B (r : result A) (f : A -> result B) b,
  bindr r f = Ok b <-> exists a, r = Ok a /\ f a = Ok b.
Proof.
  intros A B [a|m|m] f b; simpl; split; intros H.
  - eauto.
  - destruct H as [a' [E H]]. inversion E; subst; exact H.
  - discriminate.
  - destruct H as [a' [E _]]; discriminate.
  - discriminate.
  - destruct H as [a' [E _]]; discriminate.
Qed.

(* Run f over a list from left to right, stopping at the first failure. *)
Fixpoint mapr {A B} (f : A -> result B) (l : list A) : result (list B) :=
  match l with
  | [] => Ok []
  | a :: l' => do b <- f a; do bs <- mapr f l'; Ok (b :: bs)
  end.

(* ------------------------------------------------------ association lists *)

Class EqDec (K : Type) := eq_dec : forall x y : K, {x = y} + {x <> y}.
#[global] Instance EqDec_string : EqDec string := string_dec.
#[global] Instance EqDec_nat : EqDec nat := Nat.eq_dec.
#[global] Instance EqDec_pair {A B} `{EqDec A} `{EqDec B} : EqDec (A * B).
Proof. intros x y. decide equality; apply eq_dec. Defined.

Section Assoc.
Context {K V : Type} `{EqDec K}.

(* m[k] with the comma-ok form. *)
Fixpoint lookup (k : K) (m : list (K * V)) : option V :=
  match m with
  | [] => None
  | (k', v) :: m' => if eq_dec k k' then Some v else lookup k m'
  end.

(* m[k] = v : replace in place, or add.  The position of a new key is irrelevant,
   since iteration order is quantified over separately. *)
Fixpoint insert (k : K) (v : V) (m : list (K * V)) : list (K * V) :=
  match m with
  | [] => [(k, v)]
  | (k', v') :: m' => if eq_dec k k' then (k, v) :: m' else (k', v') :: insert k v m'
  end.

(* delete(m, k) *)
Fixpoint remove_key (k : K) (m : list (K * V)) : list (K * V) :=
  match m with
  | [] => []
  | (k', v') :: m' => if eq_dec k k' then remove_key k m' else (k', v') :: remove_key k m'
  end.

Definition keys (m : list (K * V)) : list K := map fst m.

Lemma lookup_insert_eq : forall k v m, lookup k (insert k v m) = Some v.
Proof.
  intros k v m; induction m as [|[k' v'] m IH]; simpl.
  - destruct (eq_dec k k); congruence.
  - destruct (eq_dec k k'); simpl.
    + destruct (eq_dec k k); congruence.
    + destruct (eq_dec k k'); congruence.
Qed.

Lemma lookup_insert_ne : forall k k' v m, k <> k' -> lookup k (insert k' v m) = lookup k m.
Proof.
  intros k k' v m Hne; induction m as [|[k2 v2] m IH]; simpl.
  - destruct (eq_dec k k'); congruence.
  - destruct (eq_dec k' k2) as [->|Hn]; simpl.
    + destruct (eq_dec k k2); congruence.
    + destruct (eq_dec k k2); congruence.
Qed.

Lemma lookup_insert : forall k k' v m,
  lookup k (insert k' v m) = if eq_dec k k' then Some v else lookup k m.
Proof.
  intros k k' v m; destruct (eq_dec k k') as [->|Hn].
  - apply lookup_insert_eq.
  - apply lookup_insert_ne; exact Hn.
Qed.

Lemma lookup_remove : forall k k' m,
  lookup k (remove_key k' m) = if eq_dec k k' then None else lookup k m.
Proof.
  intros k k' m; induction m as [|[k2 v2] m IH]; simpl.
  - destruct (eq_dec k k'); reflexivity.
  - destruct (eq_dec k' k2) as [->|Hn]; simpl.
    + rewrite IH. destruct (eq_dec k k2); reflexivity.
    + destruct (eq_dec k k2) as [->|Hn2].
      * destruct (eq_dec k2 k'); congruence.
      * exact IH.
Qed.

Lemma lookup_In : forall k v m, lookup k m = Some v -> In (k, v) m.
Proof.
  intros k v m; induction m as [|[k' v'] m IH]; simpl; [discriminate|].
  destruct (eq_dec k k') as [->|Hn]; intros E.
  - inversion E; subst; left; reflexivity.
  - right; auto.
Qed.

Lemma lookup_None : forall k m, lookup k m = None <-> ~ In k (keys m).
Proof.
  intros k m; induction m as [|[k' v'] m IH]; simpl.
  - tauto.
  - destruct (eq_dec k k') as [->|Hn]; split; intros E.
    + discriminate.
    + exfalso; apply E; left; reflexivity.
    + intros [E'|E']; [congruence|]. apply IH in E; contradiction.
    + apply IH; intros E'; apply E; right; exact E'.
Qed.

Lemma lookup_Some_key : forall k m, In k (keys m) <-> exists v, lookup k m = Some v.
Proof.
  intros k m; destruct (lookup k m) as [v|] eqn:E; split; intros Hx.
  - eauto.
  - apply lookup_In in E. apply (in_map fst) in E; exact E.
  - apply lookup_None in E; contradiction.
  - destruct Hx; discriminate.
Qed.

Lemma In_lookup : forall k v m, NoDup (keys m) -> In (k, v) m -> lookup k m = Some v.
Proof.
  intros k v m; induction m as [|[k' v'] m IH]; simpl; [tauto|].
  intros Hnd [E|HIn]; inversion Hnd as [|? ? Hnot Hnd']; subst.
  - inversion E; subst. destruct (eq_dec k k); congruence.
  - destruct (eq_dec k k') as [->|Hn].
    + exfalso; apply Hnot. apply (in_map fst) in HIn; exact HIn.
    + auto.
Qed.

Lemma keys_insert_in : forall k v m, In k (keys m) -> keys (insert k v m) = keys m.
Proof.
  intros k v m; induction m as [|[k' v'] m IH]; simpl; [tauto|].
  intros Hin. destruct (eq_dec k k') as [->|Hn]; simpl; [reflexivity|].
  f_equal; apply IH; destruct Hin; [congruence|assumption].
Qed.

Lemma insert_not_in : forall k v m, ~ In k (keys m) -> insert k v m = m ++ [(k, v)].
Proof.
  intros k v m; induction m as [|[k' v'] m IH]; simpl; [reflexivity|].
  intros Hin. destruct (eq_dec k k') as [->|Hn]; [exfalso; apply Hin; left; reflexivity|].
  f_equal; apply IH; tauto.
Qed.

Lemma NoDup_keys_insert : forall k v m, NoDup (keys m) -> NoDup (keys (insert k v m)).
Proof.
  intros k v m Hnd. destruct (in_dec eq_dec k (keys m)) as [Hin|Hin].
  - rewrite keys_insert_in; assumption.
  - rewrite insert_not_in by assumption. unfold keys. rewrite map_app; simpl.
    apply (Permutation_NoDup (Permutation_cons_append (map fst m) k)).
    constructor; assumption.
Qed.

Lemma NoDup_keys_remove : forall k m, NoDup (keys m) -> NoDup (keys (remove_key k m)).
Proof.
  intros k m; induction m as [|[k' v'] m IH]; simpl; intros Hnd; [constructor|].
  inversion Hnd as [|? ? Hnot Hnd']; subst.
  destruct (eq_dec k k') as [->|Hn]; [auto|]. simpl; constructor; [|auto].
  intros Hin. apply Hnot. clear -Hin.
  induction m as [|[k2 v2] m IH]; simpl in *; [tauto|].
  destruct (eq_dec k k2); simpl in *; tauto.
Qed.

Lemma lookup_perm : forall m m' k, NoDup (keys m) -> Permutation m m' -> lookup k m = lookup k m'.
Proof.
  intros m m' k Hnd Hp.
  assert (Hnd' : NoDup (keys m')).
  { apply (Permutation_NoDup (Permutation_map fst Hp)); exact Hnd. }
  destruct (lookup k m) as [v|] eqn:E.
  - symmetry; apply In_lookup; [exact Hnd'|].
    apply (Permutation_in _ Hp). apply lookup_In; exact E.
  - symmetry; apply lookup_None. apply lookup_None in E. intros Hin; apply E.
    apply (Permutation_in _ (Permutation_sym (Permutation_map fst Hp))); exact Hin.
Qed.

Lemma lookup_app : forall k m m', lookup k (m ++ m') =
  match lookup k m with Some v => Some v | None => lookup k m' end.
Proof.
  intros k m m'; induction m as [|[k' v'] m IH]; simpl; [reflexivity|].
  destruct (eq_dec k k'); auto.
Qed.

End Assoc.


(* ---------------------------------------------------------------- strings *)

Notation "s1 +++ s2" := (String.append s1 s2) (at level 60, right associativity).

Definition byte_of (c : ascii) : Z := Z.of_N (N_of_ascii c).

Lemma byte_of_range : forall c, (0 <= byte_of c < 256)%Z.
Proof.
  intros c; unfold byte_of. pose proof (N_ascii_bounded c). lia.
Qed.

Lemma byte_of_inj : forall c d, byte_of c = byte_of d -> c = d.
Proof.
  intros c d E. unfold byte_of in E. apply N2Z.inj in E.
  rewrite <- (ascii_N_embedding c), <- (ascii_N_embedding d), E. reflexivity.
Qed.

Lemma append_assoc : forall a b c : string, ((a +++ b) +++ c) = (a +++ (b +++ c)).
Proof. intros a b c; induction a as [|x a IH]; simpl; [reflexivity|rewrite IH; reflexivity]. Qed.

Lemma append_nil_r : forall a : string, (a +++ "") = a.
Proof. intros a; induction a as [|x a IH]; simpl; [reflexivity|rewrite IH; reflexivity]. Qed.

Lemma length_append : forall a b : string,
  String.length (a +++ b) = (String.length a + String.length b)%nat.
Proof. intros a b; induction a as [|x a IH]; simpl; [reflexivity|rewrite IH; reflexivity]. Qed.

Lemma append_inj_l : forall a b c : string, (a +++ b) = (a +++ c) -> b = c.
Proof. intros a b c; induction a as [|x a IH]; simpl; intros E; [exact E|inversion E; auto]. Qed.

(* ------------------------------------------------------------------- lists *)

Lemma NoDup_app_l : forall A (l l' : list A), NoDup (l ++ l') -> NoDup l.
Proof.
  intros A l l'; induction l as [|a l IH]; simpl; intros H; [constructor|].
  inversion H as [|? ? Hn Hd]; subst. constructor; [|auto].
  intros Hin; apply Hn; apply in_or_app; auto.
Qed.

Lemma NoDup_app_r : forall A (l l' : list A), NoDup (l ++ l') -> NoDup l'.
Proof.
  intros A l l'; induction l as [|a l IH]; simpl; intros H; [exact H|].
  inversion H as [|? ? Hn Hd]; subst; auto.
Qed.
