(* Property theorems for utils/common.go: C08-C10.  Model: SpecModel.v.  Specification
   vocabulary (value_of, wf_value, reorder, same_value, expand): SpecSpec.v. *)

From Verif Require Import Base SpecModel SpecSpec SpecProofs.

(* -------------------------------------------------------------------- C08 *)

(* Replacing every shorthand at every depth by its long form changes nothing: neither the
   value nor the failure. *)
Theorem C08_shorthand_means_long : forall v, new_value (expand v) = new_value v.
Proof. exact expand_same. Qed.
Print Assumptions C08_shorthand_means_long.

(* The four positions, spelled out. *)
Theorem C08_shorthand_positions : forall (s : string) (l : list string) (m : list (string * string))
    (m2 : list ((string * string) * string)),
  new_value (GStr s) = new_value (GPair (GStr s) GNil) /\
  new_value (GStrs l) = new_value (GPairs (map (fun t => (GStr t, GNil)) l)) /\
  new_value (GMapStr m) = new_value (GMapPair (map (fun kt => (fst kt, (GStr (snd kt), GNil))) m)) /\
  new_value (GMap2Str m2) = new_value (GMap2Pair (map (fun kt => (fst kt, (GStr (snd kt), GNil))) m2)).
Proof.
  exact (fun s l m m2 => conj (eq_sym (expand_same (GStr s))) (conj (eq_sym (expand_same (GStrs l)))
    (conj (eq_sym (expand_same (GMapStr m))) (eq_sym (expand_same (GMap2Str m2)))))).
Qed.
Print Assumptions C08_shorthand_positions.

(* Already built values are taken as they are. *)
Theorem C08_built_values_kept : forall s l m m2,
  new_value (GStruct s) = Ok (VSingle s) /\ new_value (GStructs l) = Ok (VList l) /\
  new_value (GMapStruct m) = Ok (VMap m) /\ new_value (GMapMapStruct m2) = Ok (VMap2 m2).
Proof. exact (fun s l m m2 => conj eq_refl (conj eq_refl (conj eq_refl eq_refl))). Qed.
Print Assumptions C08_built_values_kept.

Example C08_nonvacuous :
  let v := GPair (GStr "Geo") (GMap [("Shape", GStr "Circle"); ("Others", GStrs ["A"; "B"]);
             ("M", GMapPair [("k", (GStr "K", GMap [("In", GMapStr [("x", "X")])]))])]) in
  expand v <> v /\ exists x, new_value v = Ok x /\ new_value (expand v) = Ok x.
Proof. cbv zeta. split; [discriminate|]. eexists; split; reflexivity. Qed.

(* -------------------------------------------------------------------- C09 *)

(* utf8.ValidString accepts exactly the concatenations of encodings of Unicode scalars. *)
Theorem C09_field_name_check_is_utf8 : forall s, valid_utf8 s = true <-> is_utf8 s.
Proof. exact valid_utf8_spec. Qed.
Print Assumptions C09_field_name_check_is_utf8.

(* NewStruct(name, m) succeeds exactly on the well-formed specs. *)
Theorem C09_succeeds_iff_well_formed : forall name m,
  (exists x, new_struct new_value name (Some [m]) = Ok x) <-> wf_struct (GStr name) (GMap m).
Proof. exact struct_succeeds. Qed.
Print Assumptions C09_succeeds_iff_well_formed.

Theorem C09_value_succeeds_iff_well_formed : forall v, (exists x, new_value v = Ok x) <-> wf_value v.
Proof. exact value_succeeds. Qed.
Print Assumptions C09_value_succeeds_iff_well_formed.

(* Otherwise it returns an error; it never panics. *)
Theorem C09_never_panics : forall v p, new_value v <> Panic p.
Proof. exact value_no_panic. Qed.
Print Assumptions C09_never_panics.

(* NewStruct looks at the first of the maps given alone; without any it gives no fields, and an
   empty slice of maps makes it panic. *)
Theorem C09_first_map : forall name m l,
  new_struct new_value name None = Ok (SStruct name None) /\
  new_struct new_value name (Some (m :: l)) = new_struct new_value name (Some [m]).
Proof. intros. split; reflexivity. Qed.
Print Assumptions C09_first_map.
Theorem C09_empty_slice_refuted : forall name, exists p, new_struct new_value name (Some []) = Panic p.
Proof. intro. eexists. reflexivity. Qed.
Print Assumptions C09_empty_slice_refuted.

(* Success does not depend on the iteration order of any map, at any depth. *)
Theorem C09_success_order_independent : forall v v', reorder v v' ->
  (exists x, new_value v = Ok x) -> exists x', new_value v' = Ok x'.
Proof. exact success_order_independent. Qed.
Print Assumptions C09_success_order_independent.

(* Full statements (refuted below and by C10): the next two without first_keys_distinct.
   Proved: the result is what the input denotes, and does not depend on iteration order,
   when no two-level map has two entries with the same first key. *)
Theorem C09_structure_preserved_partial : forall name m x,
  is_go_value (GMap m) -> first_keys_distinct (GMap m) ->
  new_struct new_value name (Some [m]) = Ok x -> struct_of (GStr name) (GMap m) x.
Proof. exact struct_sound. Qed.
Print Assumptions C09_structure_preserved_partial.

Theorem C09_order_independent_partial : forall v v' x, is_go_value v -> first_keys_distinct v -> reorder v v' ->
  new_value v = Ok x -> exists x', new_value v' = Ok x' /\ same_value x x'.
Proof. exact order_independent. Qed.
Print Assumptions C09_order_independent_partial.

(* The two iteration orders of a two-entry map give specs that differ. *)
Theorem C09_order_independent_refuted : exists v v' x x',
  is_go_value v /\ reorder v v' /\ new_value v = Ok x /\ new_value v' = Ok x' /\ ~ same_value x x'.
Proof.
  exists (GMap2Str [(("a", "1"), "X"); (("a", "2"), "Y")]).
  exists (GMap2Str [(("a", "2"), "Y"); (("a", "1"), "X")]).
  exists (VMap2 [("a", [("2", SStruct "Y" None)])]), (VMap2 [("a", [("1", SStruct "X" None)])]).
  split; [|split; [|split; [reflexivity|split; [reflexivity|]]]].
  - intros u Hu. inversion Hu; subst. simpl.
    constructor; [intros [E|[]]; discriminate|]. constructor; [intros []|constructor].
  - constructor. split; [|split].
    + simpl. constructor; [intros [E|[]]; discriminate|]. constructor; [intros []|constructor].
    + intros k; simpl; tauto.
    + intros k a b Ha Hb. simpl in Ha, Hb.
      destruct Ha as [Ha|[Ha|[]]]; destruct Hb as [Hb|[Hb|[]]]; congruence.
  - intros H; inversion H as [| | | |? ? Hm]; subst. destruct Hm as [_ [_ Hv]].
    specialize (Hv "a" _ _ (or_introl eq_refl) (or_introl eq_refl)).
    destruct Hv as [_ [Hk _]]. specialize (Hk "2"). simpl in Hk. destruct (proj1 Hk) as [E|[]]; [auto|discriminate].
Qed.
Print Assumptions C09_order_independent_refuted.

Example C09_nonvacuous :
  let m := [("Shape", GStr "Circle"); ("T", GMap2Str [(("a", "1"), "X"); (("b", "1"), "Y")])] in
  is_go_value (GMap m) /\ first_keys_distinct (GMap m) /\
  exists x, new_struct new_value "Geo" (Some [m]) = Ok x.
Proof.
  cbv zeta.
  assert (Hsub : forall u, sub u (GMap [("Shape", GStr "Circle"); ("T", GMap2Str [(("a", "1"), "X"); (("b", "1"), "Y")])]) ->
    u = GMap [("Shape", GStr "Circle"); ("T", GMap2Str [(("a", "1"), "X"); (("b", "1"), "Y")])] \/
    u = GStr "Circle" \/ u = GMap2Str [(("a", "1"), "X"); (("b", "1"), "Y")]).
  { intros u Hu. inversion Hu as [| | | | |? w k m Hs Hin]; subst; [auto|].
    destruct Hin as [E|[E|[]]]; inversion E; subst; inversion Hs; subst; auto. }
  split; [|split].
  - intros u Hu. destruct (Hsub u Hu) as [->|[->| ->]]; simpl; auto;
      (constructor; [intros [E|[]]; discriminate|]; constructor; [intros []|constructor]).
  - intros u Hu. destruct (Hsub u Hu) as [->|[->| ->]]; simpl; auto.
      constructor; [intros [E|[]]; discriminate|]; constructor; [intros []|constructor].
  - eexists; reflexivity.
Qed.

Example C09_bad_key : new_struct new_value "Geo" (Some [[(String (ascii_of_nat 192) "x", GStr "C")]])
  = Err "invalid UTF-8 in key".
Proof. reflexivity. Qed.

(* -------------------------------------------------------------------- C10 *)

(* Full statement: every pair key of the input is a key of the result (refuted below).
   What holds in general: every first key is kept, with exactly one of its entries, the
   one visited last. *)
Theorem C10_keeps_last_visited_partial : forall m x,
  new_value (GMap2Pair m) = Ok (VMap2 x) ->
  NoDup (map fst x) /\
  (forall k, In k (map fst x) <-> exists j p, In ((k, j), p) m) /\
  (forall k ms, In (k, ms) x -> exists j p s m1 m2, ms = [(j, s)] /\ m = m1 ++ ((k, j), p) :: m2 /\
     new_single_struct new_value (fst p) (snd p) = Ok s /\ (forall j' p', ~ In ((k, j'), p') m2)).
Proof. exact map2_keeps_last. Qed.
Print Assumptions C10_keeps_last_visited_partial.

Theorem C10_keeps_every_entry_refuted : exists m x k p,
  NoDup (map fst m) /\ new_value (GMap2Pair m) = Ok (VMap2 x) /\ In (k, p) m /\
  ~ In k (map fst (entries2 x)).
Proof.
  exists [(("a", "1"), (GStr "X", GNil)); (("a", "2"), (GStr "Y", GNil))].
  exists [("a", [("2", SStruct "Y" None)])], ("a", "1"), (GStr "X", GNil).
  split; [constructor; [intros [E|[]]; discriminate|]; constructor; [intros []|constructor]|].
  split; [reflexivity|]. split; [left; reflexivity|]. simpl. intros [E|[]]; discriminate.
Qed.
Print Assumptions C10_keeps_every_entry_refuted.

Example C10_nonvacuous : new_value (GMap2Pair [(("a", "1"), (GStr "X", GNil)); (("b", "1"), (GStr "Z", GNil));
    (("a", "2"), (GStr "Y", GNil))]) =
  Ok (VMap2 [("a", [("2", SStruct "Y" None)]); ("b", [("1", SStruct "Z" None)])]).
Proof. reflexivity. Qed.
