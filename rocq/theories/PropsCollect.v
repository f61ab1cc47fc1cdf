(* Property theorems for det/collect.go: C12, C13.  Model: GoType.v, CollectModel.v;
   specification (reaches, inside, key_of): CollectSpec.v. *)

From Verif Require Import Base GoType CollectModel CollectSpec CollectProofs.

(* -------------------------------------------------------------------- C12 *)

(* Everything discovered is reachable and registered under one of its two names. *)
Theorem C12_discovery_sound : forall E impls fuel t ref r, collect E impls fuel t ref = Some r ->
  forall k n, lookup k r = Some n -> lookup k ref = Some n \/ (reaches E impls t n /\ key_of E n k).
Proof. exact collect_sound. Qed.
Print Assumptions C12_discovery_sound.

(* Full statement: the next theorem without its first hypothesis (refuted below).
   Proved: exact when no two reachable struct types share a short name. *)
Theorem C12_discovery_exact_partial : forall E impls t fuel r,
  (forall n m d d', reaches E impls t n -> reaches E impls t m -> nth_error E n = Some d -> nth_error E m = Some d' ->
     n_name d = n_name d' -> n = m) ->
  (forall n d, reaches E impls t n -> nth_error E n = Some d -> plain_name (n_name d)) ->
  collect_from E impls fuel (Some t) = Some r ->
  forall k n, lookup k r = Some n <-> reaches E impls t n /\ key_of E n k.
Proof. exact collect_exact. Qed.
Print Assumptions C12_discovery_exact_partial.

(* struct main.Top { A a.Config; B b.Config } where b.Config has a field of type b.Leaf:
   neither b.Config nor b.Leaf is found. *)
Definition clash : env := [
  mkNamed "x/main" "Top" (TStruct [GField "A" false "" (TNamed 1); GField "B" false "" (TNamed 2)]);
  mkNamed "x/a" "Config" (TStruct [GField "N" false "" (TBasic "int")]);
  mkNamed "x/b" "Config" (TStruct [GField "L" false "" (TPtr (TNamed 3))]);
  mkNamed "x/b" "Leaf" (TStruct [])].

Theorem C12_discovery_exact_refuted : exists E t fuel r n k,
  collect_from E [] fuel (Some t) = Some r /\ reaches E [] t n /\ key_of E n k /\
  (forall d, nth_error E n = Some d -> plain_name (n_name d)) /\
  lookup k r = None /\ (exists m k', reaches E [] t m /\ key_of E m k' /\ lookup k' r = None /\ m <> n).
Proof.
  exists clash, (TPtr (TNamed 0)), 5.
  exists [("Top", 0); ("main.Top", 0); ("Config", 1); ("a.Config", 1)], 3, "b.Leaf".
  assert (HB : reaches clash [] (TNamed 2) 2).
  { eapply re_here. split; [apply strip_none; discriminate|reflexivity]. }
  split; [reflexivity|]. split; [|split; [|split; [|split; [reflexivity|]]]].
  - eapply re_field with (n := 0); [split; [apply strip_ptr; reflexivity|reflexivity]|right; left; reflexivity|].
    eapply re_field with (n := 2); [split; [apply strip_none; discriminate|reflexivity]|left; reflexivity|].
    eapply re_here. split; [apply strip_ptr; reflexivity|reflexivity].
  - eexists; split; [reflexivity|]. right; split; [discriminate|]. exists "b"; split; [|reflexivity].
    split; [simpl; intuition discriminate|right; exists "x"; reflexivity].
  - intros d H; inversion H; subst. split; [discriminate|]. simpl. intuition discriminate.
  - exists 2, "b.Config". split; [|split; [|split; [reflexivity|discriminate]]].
    + eapply re_field with (n := 0); [split; [apply strip_ptr; reflexivity|reflexivity]|right; left; reflexivity|exact HB].
    + eexists; split; [reflexivity|]. right; split; [discriminate|]. exists "b"; split; [|reflexivity].
    split; [simpl; intuition discriminate|right; exists "x"; reflexivity].
Qed.
Print Assumptions C12_discovery_exact_refuted.

(* A recursive type with an interface field, a map and a slice. *)
Definition shapes : env := [
  mkNamed "x/geo" "Geo" (TStruct [GField "Shape" false "" (TNamed 1); GField "Next" false "" (TPtr (TNamed 0));
    GField "Kids" false "" (TMap (TBasic "string") (TSlice (TPtr (TNamed 3))))]);
  mkNamed "x/geo" "Shape" (TIface ["Area"]);
  mkNamed "x/geo" "Circle" (TStruct [GField "R" false "" (TBasic "float64")]);
  mkNamed "y/kid" "Kid" (TStruct [GField "Up" false "" (TPtr (TNamed 0))])].

Example C12_nonvacuous : collect_from shapes [("Shape", [Some (TPtr (TNamed 2)); None])] 10 (Some (TPtr (TNamed 0)))
  = Some [("Geo", 0); ("geo.Geo", 0); ("Circle", 2); ("geo.Circle", 2); ("Kid", 3); ("kid.Kid", 3)] /\
  collect_from shapes [] 10 None = Some [].
Proof. split; reflexivity. Qed.

Example C12_hypotheses_met :
  (forall n m d d', nth_error shapes n = Some d -> nth_error shapes m = Some d' -> n_name d = n_name d' -> n = m) /\
  (forall n d, nth_error shapes n = Some d -> plain_name (n_name d)).
Proof.
  split.
  - intros n m d d' H1 H2 H3.
    do 4 (destruct n as [|n]; [do 4 (destruct m as [|m]; [inversion H1; inversion H2; subst; try reflexivity; discriminate|]); destruct m; discriminate|]).
    destruct n; discriminate.
  - intros n d H. do 4 (destruct n as [|n]; [inversion H; split; [discriminate|simpl; intuition discriminate]|]).
    destruct n; discriminate.
Qed.

(* -------------------------------------------------------------------- C13 *)

(* Full statement: forall E impls t, exists fuel r, collect_from E impls fuel (Some t) = Some r
   (refuted below).  Proved: exactly when there is no infinite chain of slice-element,
   map-value and implementation steps; struct recursion is always fine. *)
Theorem C13_discovery_terminates_iff_partial : forall E impls,
  (forall t, exists fuel r, collect_from E impls fuel (Some t) = Some r) <->
  well_founded (fun u t => inside E impls t u).
Proof. exact collect_terminates_iff. Qed.
Print Assumptions C13_discovery_terminates_iff_partial.

(* type T []T: no call depth suffices. *)
Theorem C13_discovery_terminates_refuted : exists E t, forall fuel, collect_from E [] fuel (Some t) = None.
Proof.
  exists [mkNamed "x/main" "T" (TSlice (TNamed 0))], (TNamed 0).
  intros fuel; induction fuel as [|fuel IH]; [reflexivity|exact IH].
Qed.
Print Assumptions C13_discovery_terminates_refuted.

(* type M map[string]M as a field of the target. *)
Theorem C13_recursive_map_field_refuted : exists E t, forall fuel, collect_from E [] fuel (Some t) = None.
Proof.
  exists [mkNamed "x/main" "Top" (TStruct [GField "F" false "" (TNamed 1)]);
          mkNamed "x/main" "M" (TMap (TBasic "string") (TNamed 1))], (TPtr (TNamed 0)).
  assert (H : forall fuel ref, collect [mkNamed "x/main" "Top" (TStruct [GField "F" false "" (TNamed 1)]);
          mkNamed "x/main" "M" (TMap (TBasic "string") (TNamed 1))] [] fuel (TNamed 1) ref = None).
  { intros fuel; induction fuel as [|fuel IH]; intros ref; [reflexivity|apply IH]. }
  intros [|fuel]; [reflexivity|]. simpl. rewrite H. reflexivity.
Qed.
Print Assumptions C13_recursive_map_field_refuted.

Example C13_nonvacuous : well_founded (fun u t => inside shapes [] t u).
Proof.
  assert (Hd : forall t u, strip shapes t u -> u = deref shapes t) by apply strip_fun.
  assert (Ha : forall t, (forall n, t <> TNamed n) -> True) by auto. clear Ha.
  (* every inside step goes to a component of a type expression, and named types of this
     table have none *)
  assert (Hn : forall n u, ~ inside shapes [] (TNamed n) u).
  { intros n u H. inversion H as [t v e Hs Hu|t v k e Hs Hu|t v ms l e Hs Hu Hl]; subst; try discriminate Hl;
      apply Hd in Hs; subst v; do 4 (destruct n as [|n]; [discriminate|]); destruct n; discriminate. }
  assert (Hp : forall t, (forall u, inside shapes [] t u -> Acc (fun u t => inside shapes [] t u) u) ->
     forall u, inside shapes [] (TPtr t) u -> Acc (fun u t => inside shapes [] t u) u).
  { intros t Ht u H. inversion H as [t' v e Hs Hu|t' v k e Hs Hu|t' v ms l e Hs Hu Hl]; subst; try discriminate Hl;
      apply Hd in Hs; simpl in Hs; subst v; apply Ht; destruct t; try discriminate.
    - do 4 (destruct n as [|n]; [discriminate|]); destruct n; discriminate.
    - eapply in_slice; [apply strip_none; discriminate|exact Hu].
    - do 4 (destruct n as [|n]; [discriminate|]); destruct n; discriminate.
    - eapply in_map; [apply strip_none; discriminate|exact Hu]. }
  intros t. induction t as [n|t IH|t IH|t IH|k _ t IH|fs|ms|b]; constructor; intros u H.
  - exfalso; eapply Hn; eauto.
  - eapply Hp; [|exact H]. intros v Hv. inversion IH as [IH']. apply IH'; exact Hv.
  - inversion H as [t' v e Hs Hu|t' v k e Hs Hu|t' v ms l e Hs Hu Hl]; subst; try discriminate Hl;
      apply Hd in Hs; simpl in Hs; subst v; inversion Hu; subst; exact IH.
  - inversion H as [t' v e Hs Hu|t' v k e Hs Hu|t' v ms l e Hs Hu Hl]; subst; try discriminate Hl;
      apply Hd in Hs; simpl in Hs; subst v; inversion Hu.
  - inversion H as [t' v e Hs Hu|t' v k' e Hs Hu|t' v ms l e Hs Hu Hl]; subst; try discriminate Hl;
      apply Hd in Hs; simpl in Hs; subst v; inversion Hu; subst; exact IH.
  - inversion H as [t' v e Hs Hu|t' v k e Hs Hu|t' v ms l e Hs Hu Hl]; subst; try discriminate Hl;
      apply Hd in Hs; simpl in Hs; subst v; inversion Hu.
  - inversion H as [t' v e Hs Hu|t' v k e Hs Hu|t' v ms' l e Hs Hu Hl]; subst; try discriminate Hl;
      apply Hd in Hs; simpl in Hs; subst v; inversion Hu.
  - inversion H as [t' v e Hs Hu|t' v k e Hs Hu|t' v ms l e Hs Hu Hl]; subst; try discriminate Hl;
      apply Hd in Hs; simpl in Hs; subst v; inversion Hu.
Qed.
