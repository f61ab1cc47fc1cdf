(* Property theorems for the marks of arguments: C98. *)
From Coq Require Import List String Bool Arith ZArith Lia.
From Verif Require Import Base CtyModel FuncModel FuncSpec FuncProofs EncModel PathModel FilesetModel TimeModel CryptoModel TemplateModel CastModel NumberModel TypeModel CidrFuncModel PropsDesc PropsRefine.
Import ListNotations.
Local Open Scope string_scope.

(* ----- the specification ----- *)
(* The functions with a parameter that has AllowMarked: LengthFunc and LookupFunc
   (internal/lang/funcs/collection.go:26, 227-241), MakeToFunc (conversion.go:38), Base64DecodeFunc
   (encoding.go:26), MakeFileFunc, MakeTemplateFileFunc, MakeFileExistsFunc and MakeFileSetFunc
   (filesystem.go:31, 78, 202, 270-275), ParseIntFunc (number.go:106-111), SensitiveFunc and
   NonsensitiveFunc (sensitive.go:21, 45). *)
Definition allow_marked : list string :=
  ["length"; "lookup"; "tobool"; "tonumber"; "tostring"; "tolist"; "tomap"; "toset"; "base64decode"; "file"; "filebase64";
   "templatefile"; "fileexists"; "fileset"; "parseint"; "sensitive"; "nonsensitive"].
(* Two values that differ in their marks only. *)
Inductive same_but_marks : value -> value -> Prop :=
| same_but ms ms' s l l' : same_items l l' -> same_but_marks (Val ms s l) (Val ms' s l')
with same_items : list (string * value) -> list (string * value) -> Prop :=
| same_none : same_items [] []
| same_cons k v v' l l' : same_but_marks v v' -> same_items l l' -> same_items ((k, v) :: l) ((k, v') :: l').
(* No argument is unknown, or of an unknown type. *)
Definition all_known (args : list value) : Prop := Forall (fun v => (forall ms t p l, v <> Val ms (SUnknown t p) l) /\ kind_of (type_of v) <> KDyn) args.
(* The library puts the marks of the arguments on results that are unknown since an argument is. *)
Definition marks_unknown (e : list (param * value) -> list mark) : Prop := forall l p v x, In (p, v) l -> In x (marks_of v) -> In x (e l).

(* ----- proofs ----- *)
Lemma same_unmark : forall v w, same_but_marks v w -> unmark_deep v = unmark_deep w.
Proof.
  intro v. induction v as [ms s l IH] using value_ind'. intros w H. inversion H as [? ms' ? ? l' I]; subst. rewrite !unmark_deep_eq. f_equal.
  clear H. revert l' I. induction l as [|[k v] l IHl]; intros l' I; inversion I as [|? ? v' ? l'' S I']; subst; [reflexivity|].
  unfold unmark_all. cbn [map fst snd]. f_equal; [f_equal; apply (IH k v (or_introl eq_refl)); exact S|].
  apply IHl; [|exact I']. intros k' u J. apply (IH k' u). right. exact J.
Qed.
Lemma unmark_same : forall v w, unmark_deep v = unmark_deep w -> same_but_marks v w.
Proof.
  intro v. induction v as [ms s l IH] using value_ind'. intros [ms' s' l'] H. rewrite !unmark_deep_eq in H.
  assert (s' = s) by congruence. subst s'. assert (E : unmark_all l = unmark_all l') by congruence. clear H. constructor.
  revert l' E. induction l as [|[k v] l IHl]; intros [|[k' v'] l'] E; try discriminate; [constructor|].
  unfold unmark_all in E. cbn [map fst snd] in E. assert (k' = k) by congruence. subst k'.
  constructor; [apply (IH k v (or_introl eq_refl)); congruence|]. apply IHl; [intros k' u J; apply (IH k' u); right; exact J|].
  unfold unmark_all. congruence.
Qed.

Lemma unmark_idem : forall v, unmark_deep (unmark_deep v) = unmark_deep v.
Proof.
  intro v. induction v as [ms s l IH] using value_ind'. rewrite !unmark_deep_eq. f_equal. unfold unmark_all. rewrite map_map. apply map_ext_in.
  intros [k v] I. cbn [fst snd]. rewrite (IH k v I). reflexivity.
Qed.
Lemma unmark_none : forall m v, ~ marked_in m (unmark_deep v).
Proof.
  intros m v. induction v as [ms s l IH] using value_ind'. rewrite unmark_deep_eq. intro H. inversion H as [? ? ? I|? ? ? k v I D]; subst; [contradiction|].
  apply unmark_in in I. destruct I as (w & -> & I). exact (IH k w I D).
Qed.

Definition unread (f : func) : Prop := forallb (fun p => negb (p_marked p)) (f_params f) = true /\ match f_var f with Some p => p_marked p = false | None => True end.
Definition alike (l l' : list (param * value)) : Prop :=
  Forall2 (fun pa pb => fst pa = fst pb /\ p_marked (fst pa) = false /\ unmark_deep (snd pa) = unmark_deep (snd pb)) l l'.
Lemma pair_alike : forall ps var args args', forallb (fun p => negb (p_marked p)) ps = true -> match var with Some p => p_marked p = false | None => True end ->
  Forall2 same_but_marks args args' ->
  match pair_args ps var args with
  | None => pair_args ps var args' = None
  | Some l => map snd l = args /\ exists l', pair_args ps var args' = Some l' /\ map snd l' = args' /\ alike l l'
  end.
Proof.
  intros ps var args args' P V F. revert ps P. induction F as [|a a' args args' S F IH]; intros ps P.
  - destruct ps; cbn [pair_args]; [|reflexivity]. split; [reflexivity|]. exists []. repeat split. constructor.
  - destruct ps as [|p ps].
    + cbn [pair_args]. destruct var as [p|]; [|reflexivity]. specialize (IH [] eq_refl). destruct (pair_args [] (Some p) args) as [l|].
      * destruct IH as (A & l' & B & C & D). split; [cbn [map snd]; congruence|]. exists ((p, a') :: l'). rewrite B. split; [reflexivity|].
        split; [cbn [map snd]; congruence|]. constructor; [|exact D]. cbn [fst snd]. auto using same_unmark.
      * rewrite IH. reflexivity.
    + cbn [forallb] in P. apply andb_true_iff in P. destruct P as [Q P]. apply negb_true_iff in Q. cbn [pair_args]. specialize (IH ps P).
      destruct (pair_args ps var args) as [l|].
      * destruct IH as (A & l' & B & C & D). split; [cbn [map snd]; congruence|]. exists ((p, a') :: l'). rewrite B. split; [reflexivity|].
        split; [cbn [map snd]; congruence|]. constructor; [|exact D]. cbn [fst snd]. auto using same_unmark.
      * rewrite IH. reflexivity.
Qed.
Lemma same_shape : forall v w, unmark_deep v = unmark_deep w -> shape_of v = shape_of w.
Proof. intros v w H. rewrite <- (shape_unmark_deep v), H. apply shape_unmark_deep. Qed.
Lemma same_type : forall v w, unmark_deep v = unmark_deep w -> type_of v = type_of w.
Proof. intros v w H. rewrite <- (type_unmark_deep v), H. apply type_unmark_deep. Qed.
Lemma check_alike : forall l l', alike l l' -> check_args l = check_args l'.
Proof.
  intros l l' A. induction A as [|[p v] [p' v'] l l' (P & M & U) A IH]; [reflexivity|]. cbn [fst snd] in *. subst p'. cbn [check_args].
  unfold is_null. rewrite (same_shape v v' U), (same_type v v' U), IH. reflexivity.
Qed.
Lemma seen_alike : forall l l', alike l l' -> map seen l = map seen l'.
Proof.
  intros l l' A. induction A as [|[p v] [p' v'] l l' (P & M & U) A IH]; [reflexivity|]. cbn [fst snd map] in *. subst p'. f_equal; [|exact IH].
  unfold seen. cbn [fst snd]. rewrite M. exact U.
Qed.
Lemma unknown_alike : forall l l', alike l l' -> existsb unknown_arg l = existsb unknown_arg l'.
Proof.
  intros l l' A. induction A as [|[p v] [p' v'] l l' (P & M & U) A IH]; [reflexivity|]. cbn [fst snd existsb] in *. subst p'. f_equal; [|exact IH].
  unfold unknown_arg, is_known. cbn [fst snd]. rewrite (same_shape v v' U). reflexivity.
Qed.
Lemma taken_alike : forall l l', alike l l' -> forall m, In m (flat_map taken_marks l) <-> Exists (marked_in m) (map snd l).
Proof.
  intros l l' A m. induction A as [|[p v] [p' v'] l l' (P & M & U) A IH]; cbn [flat_map map snd].
  - split; [contradiction|]. intro H. inversion H.
  - rewrite in_app_iff, Exists_cons, IH. cbn [fst] in M. unfold taken_marks. cbn [fst snd]. rewrite M, deep_marks_In. tauto.
Qed.
Lemma alike_sym : forall l l', alike l l' -> alike l' l.
Proof.
  intros l l' A. induction A as [|[p v] [p' v'] l l' (P & M & U) A IH]; constructor; [|exact IH]. cbn [fst snd] in *. subst p'. auto.
Qed.
Lemma check_known : forall l, all_known (map snd l) -> check_args l <> Ok true.
Proof.
  induction l as [|[p v] l IH]; intro K; [discriminate|]. inversion K as [|? ? [_ D] K']; subst. cbn [snd] in *. cbn [check_args].
  destruct (_ && _); [discriminate|]. destruct (kind_eqb (kind_of (type_of v)) KDyn) eqn:E.
  - exfalso. apply D. destruct (kind_of (type_of v)); try discriminate E. reflexivity.
  - destruct (negb _); [discriminate|apply IH; exact K'].
Qed.
Lemma unknown_known : forall l, all_known (map snd l) -> existsb unknown_arg l = false.
Proof.
  induction l as [|[p v] l IH]; intro K; [reflexivity|]. inversion K as [|? ? [N _] K']; subst. cbn [existsb]. rewrite (IH K'), orb_false_r.
  cbn [snd] in N. unfold unknown_arg, is_known. cbn [snd]. destruct v as [ms s es]. cbn [shape_of]. destruct s; try reflexivity. exfalso. eapply N. reflexivity.
Qed.
Lemma same_with : forall ms ms' v, same_but_marks (with_marks ms v) (with_marks ms' v).
Proof. intros ms ms' v. apply unmark_same. destruct v as [m s l]. cbn [with_marks]. rewrite !unmark_deep_eq. reflexivity. Qed.

(* The code of a function keeps a mark of its arguments; of lookup, of the first two. *)
Definition keeps (m : mark) (k : nat) (f : func) : Prop := forall vs t r, f_impl f vs t = Ok r ->
  forall i a, nth_error vs i = Some a -> i < k -> (forall p, nth_error (f_params f) i = Some p -> p_marked p = true) -> In m (marks_of a) -> In m (marks_of r).
Lemma pair_nth : forall ps var args l, pair_args ps var args = Some l -> forall i a, nth_error args i = Some a -> 
  exists p, nth_error l i = Some (p, a) /\ forall q, nth_error ps i = Some q -> q = p.
Proof.
  intros ps var args. revert ps. induction args as [|b args IH]; intros ps l H i a N; [destruct i; discriminate N|].
  assert (A : exists p l', pair_args (tl ps) var args = Some l' /\ l = (p, b) :: l' /\ forall q, nth_error ps 0 = Some q -> q = p).
  { destruct ps as [|p ps]; cbn [pair_args] in H.
    - destruct var as [p|]; [|discriminate]. destruct (pair_args [] (Some p) args) as [l'|] eqn:E; [|discriminate]. exists p, l'. split; [exact E|]. split; [congruence|discriminate].
    - destruct (pair_args ps var args) as [l'|] eqn:E; [|discriminate]. exists p, l'. split; [exact E|]. split; [congruence|]. cbn. congruence. }
  destruct A as (p & l' & E & -> & F). destruct i as [|i]; [exists p; split; [cbn in *; congruence|exact F]|].
  destruct (IH (tl ps) l' E i a N) as (q & X & Y). exists q. split; [exact X|]. intros q' Z. apply Y. destruct ps; [discriminate Z|exact Z].
Qed.
Lemma pair_values : forall ps var args l, pair_args ps var args = Some l -> map snd l = args.
Proof.
  intros ps var args. revert ps. induction args as [|b args IH]; intros ps l H.
  - destruct ps; cbn in H; [|discriminate]. assert (l = []) by congruence. subst l. reflexivity.
  - destruct ps as [|p ps]; cbn [pair_args] in H.
    + destruct var as [p|]; [|discriminate]. destruct (pair_args [] (Some p) args) as [l'|] eqn:E; [|discriminate]. assert (l = (p, b) :: l') by congruence. subst l. cbn [map snd]. f_equal. exact (IH [] l' E).
    + destruct (pair_args ps var args) as [l'|] eqn:E; [|discriminate]. assert (l = (p, b) :: l') by congruence. subst l. cbn [map snd]. f_equal. exact (IH ps l' E).
Qed.
Lemma call_keeps : forall m k f, keeps m k f \/ unread f -> forall e args r, all_known args \/ marks_unknown e -> call e f args = Ok r ->
  forall i a, nth_error args i = Some a -> i < k -> In m (marks_of a) -> In m (marks_of r).
Proof.
  intros m k f K e args r W H i a N L I. unfold call in H. destruct (pair_args _ _ args) as [l|] eqn:P; [|discriminate H].
  destruct (pair_nth _ _ _ _ P i a N) as (p & Q & PQ). rewrite <- (pair_values _ _ _ _ P) in W.
  assert (E : marks_unknown e -> In m (e l)) by (intro M; exact (M l p a m (nth_error_In l i Q) I)).
  apply bindr_Ok in H. destruct H as (b & C & H). destruct b.
  { destruct W as [W|W]; [destruct (check_known l W C)|]. assert (r = with_marks (e l) (unknown dyn)) by congruence. subst r. apply marks_with. right. exact (E W). }
  apply bindr_Ok in H. destruct H as (t & _ & H). destruct (existsb unknown_arg l) eqn:U.
  { destruct W as [W|W]; [rewrite (unknown_known l W) in U; discriminate U|]. assert (r = with_marks (e l) (unknown t)) by congruence. subst r. apply marks_with. right. exact (E W). }
  apply bindr_Ok in H. destruct H as (v & J & H).
  assert (r = with_marks (flat_map taken_marks l) v) by congruence. subst r. apply marks_with.
  destruct (p_marked p) eqn:M.
  - left. destruct K as [K|[K V]].
    + assert (F : f_impl f (map seen l) t = Ok v) by (destruct (f_impl f (map seen l) t); [exact J|discriminate J..]).
      apply (K _ _ _ F i a); [|exact L|intros q Z; rewrite (PQ q Z); exact M|exact I]. rewrite nth_error_map, Q. cbn [option_map]. unfold seen. cbn [fst snd]. rewrite M. reflexivity.
    + exfalso. assert (S : Forall2 same_but_marks args args) by (clear; induction args; constructor; [apply unmark_same; reflexivity|assumption]).
      pose proof (pair_alike _ _ _ _ K V S) as A. rewrite P in A. destruct A as (_ & l' & _ & _ & A).
      assert (X : Forall (fun pa : param * value => p_marked (fst pa) = false) l) by (clear -A; induction A as [|? ? ? ? (_ & B & _)]; constructor; assumption).
      rewrite Forall_forall in X. specialize (X _ (nth_error_In l i Q)). cbn [fst] in X. congruence.
  - right. apply in_flat_map. exists (p, a). split; [exact (nth_error_In l i Q)|]. unfold taken_marks. cbn [fst snd]. rewrite M. apply deep_marks_In.
    destruct a as [ms s es]. apply mi_here. exact I.
Qed.
Lemma union_l : forall (m : mark) a b, In m a -> In m (union a b).
Proof. intros. apply union_In. auto. Qed.
Lemma union_r : forall (m : mark) a b, In m b -> In m (union a b).
Proof. intros. apply union_In. auto. Qed.
Lemma marks_in_with : forall m ms v, In m ms -> In m (marks_of (with_marks ms v)).
Proof. intros. apply marks_with. auto. Qed.
Ltac crunch3 := repeat match goal with
  | H : bindr _ _ = Ok _ |- _ => apply bindr_Ok in H; let Q := fresh "Q" in destruct H as (? & Q & H)
  | H : Ok _ = Ok _ |- _ => apply ok_inj in H; subst
  | H : (match ?x with _ => _ end) = Ok _ |- _ => destruct x; try discriminate H
  | H : Err _ = Ok _ |- _ => discriminate H
  | H : Panic _ = Ok _ |- _ => discriminate H
  end.
Lemma some_inj : forall (a b : value), Some a = Some b -> a = b.
Proof. congruence. Qed.
Ltac which := match goal with N : nth_error _ ?i = Some ?a |- _ => destruct i as [|[|i]]; cbn [nth_error] in N; try discriminate N; try (apply some_inj in N; subst) end.
Ltac easy_keeps := intros; intros vs t r H i a N L PM I; open H; crunch3; which; try (destruct i; discriminate);
  try (apply marks_in_with; first [exact I|apply union_l; exact I|apply union_r; exact I|apply in_or_app; auto]).
Lemma base64decode_func_keeps : forall m k x0 x1, keeps m k (base64decode_func x0 x1).
Proof. easy_keeps. Qed.
Lemma file_func_keeps : forall m k x0 x1 x2 x3 x4 x5, keeps m k (file_func x0 x1 x2 x3 x4 x5).
Proof. easy_keeps. Qed.
Lemma fileexists_func_keeps : forall m k x0 x1 x2 x3, keeps m k (fileexists_func x0 x1 x2 x3).
Proof. easy_keeps. Qed.
Lemma fileset_func_keeps : forall m k x0 x1 x2 x3 x4 x5, keeps m k (fileset_func x0 x1 x2 x3 x4 x5).
Proof. easy_keeps. Qed.
Lemma parseint_func_keeps : forall m k x0 x1 x2, keeps m k (parseint_func x0 x1 x2).
Proof. easy_keeps. Qed.
Lemma length_func_keeps : forall m k x0, keeps m k (length_func x0).
Proof.
  easy_keeps. all: try exact I. all: unfold length_val; repeat match goal with |- context [match ?x with _ => _ end] => destruct x end; try (apply marks_in_with); exact I.
Qed.

Lemma lookup_func_keeps : forall m x0 x1, keeps m 2 (lookup_func x0 x1).
Proof.
  intros m x0 x1 vs t r H i a N L PM I. cbn [f_impl lookup_func] in H. unfold lookup_impl, bad_args in H. destruct vs as [|c [|key rest]]; try discriminate H.
  assert (U : In m (union (marks_of c) (marks_of key))).
  { destruct i as [|[|i]]; [| |lia]; cbn [nth_error] in N; apply some_inj in N; subst; [apply union_l|apply union_r]; exact I. }
  apply bindr_Ok in H. destruct H as (s & _ & H). clear - H U. crunch3; apply marks_in_with; exact U.
Qed.
Lemma templatefile_func_keeps : forall m k nfc quoted home open_path early expr parse_template references evaluate valid base given,
  keeps m k (templatefile_func nfc quoted home open_path early expr parse_template references evaluate valid base given).
Proof.
  intros. intros vs t r H i a N L PM I. cbn [f_impl templatefile_func] in H. unfold bad_args in H. destruct vs as [|path [|v [|? ?]]]; try discriminate H.
  destruct i as [|[|i]]; cbn [nth_error] in N; [| |destruct i; discriminate N].
  - apply some_inj in N. subst a. crunch3. apply marks_in_with. exact I.
  - discriminate (PM _ eq_refl).
Qed.
Lemma to_func_keeps : forall m k convert quoted friendly can_convert want,
  (forall v t r, convert v t = Ok r -> forall m, In m (marks_of v) -> In m (marks_of r)) ->
  keeps m k (to_func convert quoted friendly can_convert want).
Proof.
  intros m k convert quoted friendly can_convert want HC vs t r H i a N L PM I. cbn [f_impl to_func] in H. destruct vs as [|v [|? ?]]; try discriminate H.
  destruct i as [|[|i]]; cbn [nth_error] in N; try discriminate N. apply some_inj in N. subst a. apply (HC v t r); [|exact I].
  destruct (convert v t); [exact H| |discriminate H]. destruct (contains_mark _ _); [discriminate|]. destruct (_ && _); [discriminate|]. destruct (_ && _); discriminate.
Qed.
Lemma sensitive_func_keeps : forall k, keeps sensitive_mark k sensitive_func.
Proof. intros k vs t r H i a N L PM I. cbn [f_impl sensitive_func] in H. unfold bad_args in H. crunch3. apply marks_in_with. left. reflexivity. Qed.

Section Functions.
Variables nfc quoted : string -> string.
Variable encoding : Type.
Variable iana : string -> option encoding.
Variable iana_name : encoding -> option string.
Variables encoder decoder : encoding -> string -> option string.
Variables gzip h enc sha1 : string -> string.
Variable itoa : Z -> string.
Variable blowfish : string -> Z -> string.
Variable key : Type.
Variable parse_key : string -> result (option key).
Variable decrypt : key -> string -> result string.
Variable random : result string.
Variables cwd base : string.
Variable home : result string.
Variable open_path : string -> opened.
Variable stat_path : string -> stat.
Variable stat_error : string -> string.
Variable glob : string -> result (list string).
Variable same_number : number -> number -> bool.
Variable unify : list ty -> option ty.
Variable convert : value -> ty -> result value.
Variable can_convert : ty -> ty -> bool.
Variable friendly : ty -> string.
Variable graphemes : string -> Z.
Variable replace_regexp : string -> string -> string -> result string.
Variable local : Z -> Z.
Variable float_part : Z -> Z -> nat -> Z.
Variable now : Z.
Variable static_time : gotime.
Variable mlog : float -> float.
Variable mpow : float -> float -> float.
Variable quotient : dyadic -> dyadic -> float.
Variable early : list (param * value) -> list mark.
Variable expr : Type.
Variable parse_template : string -> string -> result expr.
Variable references : expr -> list string.
Variable evaluate : expr -> list (string * value) -> list (string * func) -> result value.
Variable valid_identifier : string -> bool.
Variable given : list (string * func).
Variable type_type : ty.
Variable capsule : ty -> shape.

Lemma others_unread : forall n f, In (n, f) (functions nfc quoted encoding iana iana_name encoder decoder gzip h enc sha1 itoa blowfish key parse_key decrypt random cwd base home open_path stat_path stat_error glob same_number unify convert can_convert friendly graphemes replace_regexp local float_part now static_time mlog mpow quotient early expr parse_template references evaluate valid_identifier given type_type capsule) -> ~ In n allow_marked -> unread f.
Proof.
  intros n f I R. assert (B : existsb (String.eqb n) allow_marked = false).
  { destruct (existsb _ _) eqn:E; [|reflexivity]. apply existsb_exists in E. destruct E as (m & J & Q). apply String.eqb_eq in Q. subst m. contradiction. }
  clear R. unfold functions in I. cbn [In] in I.
  repeat (destruct I as [I|I]; [injection I as <- <-; first [exfalso; clear -B; vm_compute in B; discriminate B|clear B; split; [reflexivity|exact I || reflexivity]] |]).
  contradiction.
Qed.

(* What the other functions give, and what they say when they refuse, does not depend on marks. *)
Theorem C98_blind : forall n f, In (n, f) (functions nfc quoted encoding iana iana_name encoder decoder gzip h enc sha1 itoa blowfish key parse_key decrypt random cwd base home open_path stat_path stat_error glob same_number unify convert can_convert friendly graphemes replace_regexp local float_part now static_time mlog mpow quotient early expr parse_template references evaluate valid_identifier given type_type capsule) -> ~ In n allow_marked ->
  forall e args args', Forall2 same_but_marks args args' ->
  match call e f args with
  | Ok r => exists r', call e f args' = Ok r' /\ same_but_marks r r'
  | Err m => call e f args' = Err m
  | Panic _ => False
  end.
Proof.
  intros n f I N e args args' S. destruct (others_unread n f I N) as [P V]. unfold call. pose proof (pair_alike _ _ _ _ P V S) as H.
  destruct (pair_args _ _ args) as [l|]; [|rewrite H; reflexivity]. destruct H as (_ & l' & -> & _ & A).
  rewrite <- (check_alike l l' A), <- (seen_alike l l' A), <- (unknown_alike l l' A).
  assert (K : forall l q, check_args l <> Panic q).
  { clear. induction l as [|[a v] l IH]; intro q; cbn [check_args]; [discriminate|].
    repeat match goal with |- context [if ?b then _ else _] => destruct b end; first [discriminate|apply IH]. }
  destruct (check_args l) as [[]|?|q] eqn:C; cbn [bindr]; [| |reflexivity|exact (K l q C)].
  - eexists. split; [reflexivity|apply same_with].
  - destruct (f_type f (map seen l)) as [t|?|?]; cbn [no_panic bindr]; [|reflexivity..]. destruct (existsb unknown_arg l).
    + eexists. split; [reflexivity|apply same_with].
    + destruct (f_impl f (map seen l) t) as [v|?|?]; cbn [no_panic bindr]; [|reflexivity..]. eexists. split; [reflexivity|apply same_with].
Qed.

(* And of known arguments no mark is lost: the result has those of all the arguments, at any
   depth, and besides only those it has when none of the arguments is marked. *)
Theorem C98_kept : forall n f, In (n, f) (functions nfc quoted encoding iana iana_name encoder decoder gzip h enc sha1 itoa blowfish key parse_key decrypt random cwd base home open_path stat_path stat_error glob same_number unify convert can_convert friendly graphemes replace_regexp local float_part now static_time mlog mpow quotient early expr parse_template references evaluate valid_identifier given type_type capsule) -> ~ In n allow_marked ->
  forall e args r, all_known args -> call e f args = Ok r -> exists r', call e f (map unmark_deep args) = Ok r' /\
    forall m, In m (marks_of r) <-> In m (marks_of r') \/ Exists (marked_in m) args.
Proof.
  intros n f I N e args r W H. destruct (others_unread n f I N) as [P V]. unfold call in *.
  assert (S : Forall2 same_but_marks args (map unmark_deep args)).
  { clear. induction args as [|a args IH]; cbn [map]; constructor; [|exact IH]. apply unmark_same. symmetry. apply unmark_idem. }
  pose proof (pair_alike _ _ _ _ P V S) as Q. destruct (pair_args _ _ args) as [l|]; [|discriminate H]. destruct Q as (L & l' & -> & L' & A).
  rewrite <- (check_alike l l' A), <- (seen_alike l l' A), <- (unknown_alike l l' A). rewrite <- L in W.
  rewrite (unknown_known l W) in *. pose proof (check_known l W) as CK. apply bindr_Ok in H. destruct H as (b & C & H). destruct b; [contradiction|].
  rewrite C. cbn [bindr]. apply bindr_Ok in H. destruct H as (t & T & H). rewrite T. cbn [bindr]. apply bindr_Ok in H. destruct H as (v & J & H).
  rewrite J. cbn [bindr]. eexists. split; [reflexivity|]. intro m. assert (r = with_marks (flat_map taken_marks l) v) by congruence. subst r.
  rewrite !marks_with, (taken_alike l l' A m), (taken_alike l' l (alike_sym l l' A) m), L, L'. split; [tauto|].
  intros [[X|X]|X]; [tauto| |tauto]. exfalso. apply Exists_exists in X. destruct X as (x & X & Y). apply in_map_iff in X. destruct X as (y & <- & _).
  exact (unmark_none m y Y).
Qed.

Lemma all_keep : (forall v t r, convert v t = Ok r -> forall m, In m (marks_of v) -> In m (marks_of r)) ->
  forall n f, In (n, f) (functions nfc quoted encoding iana iana_name encoder decoder gzip h enc sha1 itoa blowfish key parse_key decrypt random cwd base home open_path stat_path stat_error glob same_number unify convert can_convert friendly graphemes replace_regexp local float_part now static_time mlog mpow quotient early expr parse_template references evaluate valid_identifier given type_type capsule) -> In n allow_marked -> n <> "nonsensitive" -> forall k, (n = "lookup" -> k = 2) -> keeps sensitive_mark k f.
Proof.
  intros HC n f I R NN k LK. assert (B : existsb (String.eqb n) allow_marked = true).
  { apply existsb_exists. exists n. split; [exact R|apply String.eqb_refl]. }
  clear R. unfold functions in I. cbn [In] in I.
  repeat (destruct I as [I|I]; [injection I as <- <-; first [exfalso; clear -B; vm_compute in B; discriminate B|exfalso; apply NN; reflexivity
    |rewrite (LK eq_refl); apply lookup_func_keeps|clear B; auto using base64decode_func_keeps, file_func_keeps, fileexists_func_keeps, fileset_func_keeps, parseint_func_keeps, length_func_keeps, templatefile_func_keeps, to_func_keeps, sensitive_func_keeps] |]).
  contradiction.
Qed.

(* No function but nonsensitive makes a secret public: if an argument is sensitive, so is the
   result; of lookup, if the map or the key is.  Of unknown arguments this holds if the library
   marks the unknown result. *)
Theorem C98_secret : (forall v t r, convert v t = Ok r -> forall m, In m (marks_of v) -> In m (marks_of r)) ->
  forall n f, In (n, f) (functions nfc quoted encoding iana iana_name encoder decoder gzip h enc sha1 itoa blowfish key parse_key decrypt random cwd base home open_path stat_path stat_error glob same_number unify convert can_convert friendly graphemes replace_regexp local float_part now static_time mlog mpow quotient early expr parse_template references evaluate valid_identifier given type_type capsule) -> n <> "nonsensitive" ->
  forall e args r, all_known args \/ marks_unknown e -> call e f args = Ok r ->
  forall i a, nth_error args i = Some a -> (n = "lookup" -> i < 2) -> In sensitive_mark (marks_of a) -> In sensitive_mark (marks_of r).
Proof.
  intros HC n f I NN e args r W H i a N L J. destruct (in_dec string_dec n allow_marked) as [A|A].
  - destruct (string_dec n "lookup") as [E|E].
    + apply (call_keeps sensitive_mark 2 f (or_introl (all_keep HC n f I A NN 2 (fun _ => eq_refl))) e args r W H i a N (L E) J).
    + apply (call_keeps sensitive_mark (S i) f (or_introl (all_keep HC n f I A NN (S i) (fun Q => match E Q with end))) e args r W H i a N (le_n _) J).
  - apply (call_keeps sensitive_mark (S i) f (or_intror (others_unread n f I A)) e args r W H i a N (le_n _) J).
Qed.
End Functions.
Print Assumptions C98_blind.
Print Assumptions C98_kept.
Print Assumptions C98_secret.

(* Marks of two arguments and a mark inside an argument come with the result; and what length, lookup and
   nonsensitive leave out. *)
Example C98_sample : forall convert quoted graphemes e,
  let secret := Val [sensitive_mark] (SStr "ab") [] in
  let pair := Val [] (SMap str) [("k", secret); ("l", str_val "c")] in
  same_but_marks secret (str_val "ab") /\ ~ same_but_marks secret (str_val "ac") /\ all_known [secret; pair] /\
  call e startswith_func [secret; Val ["file"] (SStr "a") []] = Ok (Val [sensitive_mark; "file"] (SBool true) []) /\
  call e startswith_func [str_val "ab"; str_val "a"] = Ok (bool_val true) /\
  call e transpose_func [Val [] (SMap (list_of str)) [("k", Val [] (SList str) [("", secret)])]] = Ok (Val [sensitive_mark] (SMap (list_of str)) [("ab", list_val str [str_val "k"])]) /\
  call e (length_func graphemes) [pair] = Ok (num_val (int_val 2)) /\
  call e (lookup_func convert quoted) [pair; str_val "l"] = Ok (str_val "c") /\
  call e (lookup_func convert quoted) [pair; str_val "k"] = Ok secret /\
  call e nonsensitive_func [secret] = Ok (str_val "ab").
Proof.
  intros. split; [apply unmark_same; reflexivity|]. split; [intro S; apply same_unmark in S; discriminate S|].
  split; [repeat constructor; (intros ms t p l; discriminate) || discriminate|].
  repeat (split; [vm_compute; reflexivity|]). vm_compute. reflexivity.
Qed.
