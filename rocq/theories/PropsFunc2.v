(* The properties of transpose, matchkeys, one and sum. *)

From Verif Require Import Base CtyModel FuncModel FuncSpec FuncProofs FuncList FuncSum.
From Coq Require Import Lia Sorted.

Definition no_marks (l : list (param * value)) : list mark := [].

(* ----- C43: transpose ----- *)

(* The order of the elements l of the map is any. *)
Theorem C43_transpose : forall early ms l m, string_map l m -> NoDup (keys m) ->
  exists r out, call early transpose_func [Val ms (SMap (list_of str)) l] = Ok r
  /\ shape_of r = SMap (list_of str) /\ string_map (elems r) out /\ NoDup (keys out)
  /\ (forall v ks, lookup v out = Some ks ->
        StronglySorted (fun a b => String.leb a b = true) ks
        /\ forall k, count_occ string_dec ks k
             = match lookup k m with Some vs => count_occ string_dec vs v | None => 0%nat end)
  /\ (forall v, lookup v out = None <-> forall k vs, lookup k m = Some vs -> ~ In v vs)
  /\ (forall x, marked_in x (Val ms (SMap (list_of str)) l) -> In x (marks_of r)).
Proof.
  intros early ms l m F N. destruct (call_transpose early ms l m F N) as (out & E & [No S] & C).
  assert (C' : forall v k, count_occ string_dec (entry out v) k
     = match lookup k m with Some vs => count_occ string_dec vs v | None => 0%nat end).
  { intros v k. specialize (C v k). unfold count in C. rewrite C. unfold entry. destruct (lookup k m); reflexivity. }
  eexists. exists out. split; [exact E|]. rewrite shape_with, elems_with.
  split; [reflexivity|]. split; [apply strings_val_map|]. split; [exact No|]. split; [|split].
  - intros v ks L. split; [exact (proj1 (S v ks L))|]. intros k. rewrite <- C'. unfold entry. rewrite L. reflexivity.
  - intros v. split.
    + intros L k vs Lk I. specialize (C' v k). unfold entry in C'. rewrite L, Lk in C'. cbn in C'.
      apply (count_occ_In string_dec) in I. lia.
    + intros H. destruct (lookup v out) as [ks|] eqn:L; [exfalso|reflexivity].
      destruct (S v ks L) as [_ Ne]. destruct ks as [|k ks]; [congruence|].
      specialize (C' v k). unfold entry in C'. rewrite L in C'. cbn [count_occ] in C'.
      destruct (string_dec k k) as [_|X]; [|congruence]. destruct (lookup k m) as [vs|] eqn:Lk; [|discriminate].
      apply (H k vs Lk). apply (count_occ_In string_dec). lia.
  - intros x I. apply marks_with. right. apply deep_marks_In. exact I.
Qed.
Print Assumptions C43_transpose.

(* Transposing twice gives back the lists that are not empty, if they are sorted. *)
Theorem C43_twice : forall early ms l m, string_map l m -> NoDup (keys m) ->
  (forall k vs, lookup k m = Some vs -> StronglySorted (fun a b => String.leb a b = true) vs) ->
  exists r r' out, call early transpose_func [Val ms (SMap (list_of str)) l] = Ok r
  /\ call early transpose_func [r] = Ok r' /\ shape_of r' = SMap (list_of str) /\ string_map (elems r') out
  /\ forall k vs, lookup k out = Some vs <-> lookup k m = Some vs /\ vs <> [].
Proof.
  intros early ms l m F N Hs. destruct (call_transpose early ms l m F N) as (o1 & E1 & [N1 S1] & C1).
  destruct (call_transpose early (union [] (deep_marks (Val ms (SMap (list_of str)) l))) _ o1 (strings_val_map o1) N1)
    as (o2 & E2 & [N2 S2] & C2).
  do 2 eexists. exists o2. split; [exact E1|]. split; [exact E2|]. rewrite shape_with, elems_with.
  split; [reflexivity|]. split; [apply strings_val_map|].
  assert (Same : forall k, entry o2 k = entry m k).
  { intros k. apply sorted_same.
    - unfold entry. destruct (lookup k o2) as [x|] eqn:L; [exact (proj1 (S2 k x L))|constructor].
    - unfold entry. destruct (lookup k m) as [x|] eqn:L; [exact (Hs k x L)|constructor].
    - intros s. rewrite C2, C1. reflexivity. }
  intros k vs. specialize (Same k). unfold entry in Same. split.
  - intros L. destruct (S2 k vs L) as [_ Ne]. rewrite L in Same. destruct (lookup k m); subst; [auto|congruence].
  - intros [L Ne]. rewrite L in Same. destruct (lookup k o2); subst; [reflexivity|congruence].
Qed.
Print Assumptions C43_twice.

Definition strings (l : list (string * list string)) : value :=
  Val [] (SMap (list_of str)) (map (fun kl => (fst kl, strings_val (snd kl))) l).
Example C43_sample :
  call no_marks transpose_func [strings [("b", ["1"; "2"; "2"]); ("a", ["2"]); ("c", [])]]
    = Ok (strings [("1", ["b"]); ("2", ["a"; "b"; "b"])]).
Proof. reflexivity. Qed.

(* A null among the strings is an error. *)
Example C43_null : exists e, call no_marks transpose_func
  [Val [] (SMap (list_of str)) [("a", list_val str [plain (SNull str)])]] = Err e.
Proof. eexists. reflexivity. Qed.

(* ----- C48: matchkeys ----- *)

Definition snds (l : list (string * value)) : list value := map snd l.

(* Missing from the full statement: search sets with unknowns, for which it is false (below).
   ks' and ss' are the keys and the search set converted to their common type. *)
Theorem C48_filter_partial : forall early sn unify convert mv mk ms tv tk ts vs ks ss u tk' ts' ks' ss',
  let v := Val mv (SList tv) vs in let k := Val mk (SList tk) ks in let s := Val ms (SList ts) ss in
  unify [type_of k; type_of s] = Some u ->
  convert (unmark_deep k) u = Ok (Val [] (SList tk') ks') ->
  convert (unmark_deep s) u = Ok (Val [] (SList ts') ss') ->
  List.length ks' = List.length ks -> List.length vs = List.length ks ->
  wholly_known v = true -> wholly_known (Val [] (SList tk') ks') = true ->
  (forall n x, In (n, x) ks' -> typed x /\ settled x) -> (forall n x, In (n, x) ss' -> typed x /\ settled x) ->
  exists r, call early (matchkeys_func sn unify convert) [v; k; s] = Ok r
  /\ shape_of r = SList tv /\ selected sn ss' ks' (snds (elems (unmark_deep v))) (snds (elems r))
  /\ (forall m, marked_in m v \/ marked_in m k \/ marked_in m s -> In m (marks_of r)).
Proof.
  intros early sn unify convert mv mk ms tv tk ts vs ks ss u tk' ts' ks' ss' v k s U Ck Cs Lk Lv Wv Wk Hk Hs.
  unfold matchkeys_func. unfold v, k, s. rewrite call_lists. fold v k s. rewrite !type_unmark_deep, U.
  cbn [no_panic bindr]. change (iterate (unmark_deep v)) with (@Ok (list (string * value)) (elems (unmark_deep v))).
  change (iterate (unmark_deep k)) with (@Ok (list (string * value)) (elems (unmark_deep k))). cbn [bindr].
  assert (Ev : elems (unmark_deep v) = unmark_all vs) by (unfold v; rewrite unmark_deep_eq; reflexivity).
  assert (Ek : elems (unmark_deep k) = unmark_all ks) by (unfold k; rewrite unmark_deep_eq; reflexivity).
  rewrite Ev, Ek.
  replace (Nat.eqb (List.length (unmark_all vs)) (List.length (unmark_all ks))) with true
    by (unfold unmark_all; rewrite !map_length, Lv; symmetry; apply Nat.eqb_refl).
  cbn [negb]. rewrite Ck, Cs. cbn [bindr iterate]. rewrite known_unmark, Wv, Wk. cbn [negb orb].
  assert (Ll : List.length ks' = List.length (snds (unmark_all vs))).
  { unfold snds, unmark_all. rewrite !map_length. lia. }
  assert (Mk : forall y m, marked_in m v \/ marked_in m k \/ marked_in m s ->
     In m (marks_of (with_marks (deep_marks v ++ deep_marks k ++ deep_marks s) y))).
  { intros y m H. apply marks_with. right. rewrite !in_app_iff, !deep_marks_In. exact H. }
  change (element_type (type_of v)) with tv.
  destruct ss' as [|x0 ss'].
  - cbn [no_panic bindr]. eexists. split; [reflexivity|]. rewrite shape_with, elems_with. split; [reflexivity|].
    split; [|apply Mk]. apply select_none. exact Ll.
  - destruct (matching_spec sn (x0 :: ss') ks' (snds (unmark_all vs)) Hs Hk Ll) as (out & R & S).
    unfold snds in R at 1. rewrite R.
    assert (X : match out with [] => Ok (list_val tv []) | _ => Ok (list_val tv out) end = Ok (list_val tv out))
      by (destruct out; reflexivity).
    replace (match out with [] => Ok (list_val tv []) | _ :: _ => Ok (list_val tv out) end) with (@Ok value (list_val tv out)).
    cbn [no_panic bindr]. eexists. split; [reflexivity|]. rewrite shape_with, elems_with. split; [reflexivity|].
    split; [|apply Mk]. cbn [elems list_val]. unfold snds at 2. unfold named. rewrite map_map. cbn [snd]. rewrite map_id. exact S.
Qed.
Print Assumptions C48_filter_partial.

Theorem C48_lengths : forall early sn unify convert mv mk ms tv tk ts vs ks ss,
  List.length vs <> List.length ks ->
  exists e, call early (matchkeys_func sn unify convert) [Val mv (SList tv) vs; Val mk (SList tk) ks; Val ms (SList ts) ss] = Err e.
Proof.
  intros early sn unify convert mv mk ms tv tk ts vs ks ss N. unfold matchkeys_func. rewrite call_lists.
  destruct (unify [type_of (unmark_deep (Val mk (SList tk) ks)); type_of (unmark_deep (Val ms (SList ts) ss))]);
    cbn [no_panic bindr]; [|eexists; reflexivity].
  rewrite !unmark_deep_eq. cbn [iterate bindr].
  replace (Nat.eqb (List.length (unmark_all vs)) (List.length (unmark_all ks))) with false
    by (symmetry; apply Nat.eqb_neq; unfold unmark_all; rewrite !map_length; exact N).
  cbn. eexists. reflexivity.
Qed.
Print Assumptions C48_lengths.

Definition first_type (l : list ty) : option ty := match l with t :: _ => Some t | [] => None end.
Definition no_convert (v : value) (t : ty) : result value := Ok v.
Definition same_num (a b : number) : bool :=
  match a, b with Fin _ x, Fin _ y => Z.eqb (num x * pow2 (den y)) (num y * pow2 (den x)) | Inf s, Inf s' => Bool.eqb s s' | _, _ => false end.

Example C48_sample :
  call no_marks (matchkeys_func same_num first_type no_convert)
    [list_val str [str_val "a"; str_val "b"; str_val "c"]; list_val str [str_val "x"; str_val "y"; str_val "x"]; list_val str [str_val "x"]]
  = Ok (list_val str [str_val "a"; str_val "c"]).
Proof. reflexivity. Qed.

(* With an unknown in the search set the result is a known empty list, although filling it in
   can give another result. *)
Theorem C48_refuted : exists values keys set set' r,
  (forall sn, call no_marks (matchkeys_func sn first_type no_convert) [values; keys; list_val str [set]] = Ok r)
  /\ is_known set = false /\ type_of set' = type_of set /\ wholly_known r = true
  /\ (forall sn, call no_marks (matchkeys_func sn first_type no_convert) [values; keys; list_val str [set']] <> Ok r).
Proof.
  exists (list_val str [str_val "a"]), (list_val str [str_val "k"]), (unknown str), (str_val "k"). eexists.
  split; [intros sn; reflexivity|]. repeat split. intros sn. cbn. discriminate.
Qed.
Print Assumptions C48_refuted.

(* ----- C49: one and sum ----- *)

Theorem C49_one : forall early ms s l, (s = STuple \/ exists t, s = SList t \/ s = SSet t) ->
  wholly_known (Val ms s l) = true ->
  match l with
  | [] => exists r t, call early one_func [Val ms s l] = Ok r /\ shape_of r = SNull t
  | [(_, x)] => exists r, call early one_func [Val ms s l] = Ok r /\ shape_of r = shape_of x
                 /\ elems r = elems (unmark_deep x) /\ forall m, marked_in m (Val ms s l) -> In m (marks_of r)
  | _ => exists e, call early one_func [Val ms s l] = Err e
  end.
Proof.
  intros early ms s l Hs W. assert (H := call_one early ms s l Hs W). destruct l as [|[k x] [|y l]]; try exact H.
  destruct H as (r & E & S & El & M). exists r. repeat split; try assumption.
  intros m I. apply M, deep_marks_In, I.
Qed.
Print Assumptions C49_one.

Section Sum.
Variable convert : value -> ty -> result value.
Hypothesis numbers_stay : forall n, convert (Val [] (SNum n) []) numt = Ok (Val [] (SNum n) []).

(* Missing from the full statement: sums whose digits do not fit the precision P of the numbers,
   for which it is false (below).  scaled K d is d times 2^K. *)
Theorem C49_sum_partial : forall early ms s l ds P K, (s = STuple \/ exists t, s = SList t \/ s = SSet t) ->
  Forall2 (fun kv d => exists m p, snd kv = Val m (SNum (Fin p d)) [] /\ (P <= p)%Z) l ds ->
  l <> [] -> (forall d, In d ds -> (den d <= K)%nat) -> (magnitude K ds < 2 ^ P)%Z ->
  exists r q e, call early (sum_func convert) [Val ms s l] = Ok r /\ shape_of r = SNum (Fin q e)
    /\ (den e <= K)%nat /\ scaled K e = fold_right Z.add 0%Z (map (scaled K) ds).
Proof.
  intros early ms s l ds P K Hs F Ne Hd B.
  rewrite (call_sum convert early ms s l Hs (numbers_known P ms s l ds Hs F)).
  destruct F as [|[k v] d l ds (m & p & E & Hp) F]; [congruence|]. cbn [snd] in E. subst v.
  cbn [unmark_all map fst snd unmark_deep]. rewrite (to_number_number convert numbers_stay). cbn [bindr].
  destruct (sum_from_exact convert numbers_stay K P l ds F (fun d I => Hd d (or_intror I)) p d Hp
    (Hd d (or_introl eq_refl)) B) as (q & e & R & De & T).
  unfold unmark_all in R. rewrite R. cbn [bindr no_panic]. do 3 eexists. split; [reflexivity|]. rewrite shape_with.
  split; [reflexivity|]. split; [exact De|]. rewrite T. cbn [fold_right map]. f_equal.
  clear. induction ds as [|x ds IH]; [reflexivity|]. cbn [total fold_right map]. rewrite IH. reflexivity.
Qed.

(* Finite numbers always have a result. *)
Theorem C49_sum_succeeds : forall early ms s l ds P, (s = STuple \/ exists t, s = SList t \/ s = SSet t) ->
  Forall2 (fun kv d => exists m p, snd kv = Val m (SNum (Fin p d)) [] /\ (P <= p)%Z) l ds -> l <> [] ->
  exists r, call early (sum_func convert) [Val ms s l] = Ok r.
Proof.
  intros early ms s l ds P Hs F Ne. rewrite (call_sum convert early ms s l Hs (numbers_known P ms s l ds Hs F)).
  destruct F as [|[k v] d l ds (m & p & E & Hp) F]; [congruence|]. cbn [snd] in E. subst v.
  cbn [unmark_all map fst snd unmark_deep]. rewrite (to_number_number convert numbers_stay). cbn [bindr].
  destruct (sum_from_ok convert numbers_stay P l ds F p d) as (q & e & R). unfold unmark_all in R. rewrite R.
  eexists. reflexivity.
Qed.
End Sum.
Print Assumptions C49_sum_partial.
Print Assumptions C49_sum_succeeds.

Theorem C49_sum_empty : forall convert early ms s, (s = STuple \/ exists t, s = SList t \/ s = SSet t) ->
  exists e, call early (sum_func convert) [Val ms s []] = Err e.
Proof. intros convert early ms s Hs. rewrite call_sum; [eexists; reflexivity|exact Hs|destruct Hs as [->|(t & [->| ->])]; reflexivity]. Qed.
Print Assumptions C49_sum_empty.

(* A null element, or one that is not a number and cannot be converted, is an error; so is an
   argument that is not a sequence. *)
Theorem C49_sum_bad : forall convert early ms s l k x, (s = STuple \/ exists t, s = SList t \/ s = SSet t) ->
  wholly_known (Val ms s l) = true -> In (k, x) l ->
  is_null x = true \/ (forall y, convert (unmark_deep x) numt <> Ok y) ->
  exists e, call early (sum_func convert) [Val ms s l] = Err e.
Proof.
  intros convert early ms s l k x Hs W I B. rewrite call_sum by assumption.
  assert (N : forall n, to_number convert (unmark_deep x) <> Ok n).
  { intros n. unfold to_number. destruct B as [Z|B].
    - replace (is_null (unmark_deep x)) with true; [discriminate|]. unfold is_null in *. rewrite shape_unmark_deep. congruence.
    - destruct (is_null (unmark_deep x)); [discriminate|]. destruct (convert (unmark_deep x) numt) as [y|e|e]; try discriminate.
      exfalso. exact (B y eq_refl). }
  assert (I' : In (k, unmark_deep x) (unmark_all l)) by (unfold unmark_all; apply in_map_iff; exists (k, x); split; [reflexivity|exact I]).
  destruct (unmark_all l) as [|[k0 x0] r]; [destruct I'|].
  match goal with |- exists e, (do y <- no_panic ?R; _) = _ => assert (F : forall v, R <> Ok v) end.
  { intros v. destruct I' as [X|I'].
    - injection X as -> ->. destruct (to_number convert (unmark_deep x)) as [n|e|e]; cbn [bindr]; try discriminate. exfalso. exact (N n eq_refl).
    - destruct (to_number convert x0) as [n|e|e]; cbn [bindr]; try discriminate.
      assert (Q := sum_from_bad convert k (unmark_deep x) r N I' n). destruct (sum_from convert n r) as [m|e|e]; cbn [bindr]; try discriminate.
      exfalso. exact (Q m eq_refl). }
  match goal with |- exists e, (do y <- no_panic ?R; _) = _ => destruct R as [v|e|e] end; [exfalso; exact (F v eq_refl)| |];
    cbn [no_panic bindr]; eexists; reflexivity.
Qed.
Print Assumptions C49_sum_bad.

Theorem C49_sum_shape : forall convert early ms s l, (s = SObj \/ (exists t, s = SMap t) \/ (exists x, s = SStr x)
  \/ (exists b, s = SBool b) \/ (exists n, s = SNum n)) ->
  exists e, call early (sum_func convert) [Val ms s l] = Err e.
Proof.
  intros convert early ms s l H. unfold sum_func.
  rewrite call_any1; try (destruct H as [->|[(t & ->)|[(x & ->)|[(b & ->)|(n & ->)]]]]; reflexivity).
  rewrite unmark_deep_eq. destruct H as [->|[(t & ->)|[(x & ->)|[(b & ->)|(n & ->)]]]];
    destruct (unmark_all l) as [|[k x0] r]; cbn; eexists; reflexivity.
Qed.
Print Assumptions C49_sum_shape.

(* The order matters where numbers have only the 64 bits of cty.NumberIntVal. *)
Theorem C49_order_refuted : exists a b n n',
  call no_marks (sum_func no_convert) [list_val numt (map num_val (a ++ b))] = Ok (num_val n)
  /\ call no_marks (sum_func no_convert) [list_val numt (map num_val (b ++ a))] = Ok (num_val n') /\ same_num n n' = false.
Proof.
  set (M := int_val 9223372036854775807). exists [M; M], [int_val 3; int_val 1]. do 2 eexists.
  split; [vm_compute; reflexivity|]. split; [vm_compute; reflexivity|]. vm_compute. reflexivity.
Qed.
Print Assumptions C49_order_refuted.

Example C49_sample :
  call no_marks (sum_func no_convert) [list_val numt (map num_val [int_val 2; Fin 512 (mkD 1 1); int_val 4])]
    = Ok (num_val (Fin 512 (mkD 13 1)))
  /\ (exists e, call no_marks (sum_func no_convert) [list_val numt [num_val (int_val 2); plain (SNull numt)]] = Err e)
  /\ (exists e, call no_marks (sum_func no_convert) [list_val numt [num_val (Inf true); num_val (Inf false)]] = Err e)
  /\ call no_marks one_func [list_val str [Val ["m"] (SStr "x") []]] = Ok (Val ["m"] (SStr "x") []).
Proof. repeat split; try (eexists; reflexivity). Qed.
