(* Property theorems for det/util.go and det/unmarshal.go: C11, C14..C23.  Model:
   DetModel.v; specification (flat, selects, merged, field_value, decoded, same_val):
   DetSpec.v; what can be decoded: DetTotalSpec.v; "succeeded" (a successful call and one of its fields): DetCor.v.

   Everywhere: E is any table of named types, depth any call depth, std any behaviour of
   encoding/json.Unmarshal, zero the zero values, assignable any assignability relation,
   perm any iteration order of maps. *)

From Verif Require Import Base GoType SpecModel CollectModel CollectSpec DetModel DetSpec DetProofs DetSound DetOrder DetFrame DetCor
  CollectProofs DetTotalSpec DetTotal.

(* ------------------------------------------------------------- example world *)

(* type Top struct { Base; Name string; Shape Shape; List []Shape; M map[string]Shape;
     M2 map[[2]string]Shape; secret string; Skip string `json:"-"` }
   type Base struct { ID string `json:"id"` } *)
Definition ex_env : env := [
  mkNamed "x/main" "Top" (TStruct [
    GField "Base" true "" (TNamed 1); GField "Name" false "name,omitempty" (TBasic "string");
    GField "Shape" false "shape" (TNamed 2); GField "List" false "list" (TSlice (TNamed 2));
    GField "M" false "m" (TMap (TBasic "string") (TNamed 2));
    GField "M2" false "m2" (TMap (TArray (TBasic "string")) (TNamed 2));
    GField "secret" false "" (TBasic "string"); GField "Skip" false "-" (TBasic "string")]);
  mkNamed "x/main" "Base" (TStruct [GField "ID" false "id" (TBasic "string")]);
  mkNamed "x/main" "Shape" (TIface ["Area"]);
  mkNamed "x/main" "Circle" (TStruct [GField "R" false "r" (TBasic "string")]);
  mkNamed "x/main" "Square" (TStruct [GField "S" false "s" (TBasic "string")])].

Definition ex_zero (t : gtype) : gval :=
  match under ex_env t with TStruct _ => XStruct (fun _ => XOpaque "") | _ => XOpaque "" end.
(* encoding/json for strings and for structs of strings keyed by field name. *)
Definition ex_std (t : gtype) (cur : gval) (dat : option json) : gval * result unit :=
  match dat with
  | None => (cur, Err "unexpected end of JSON input")
  | Some j =>
    match under ex_env t, j with
    | _, JNull => (cur, Ok tt)
    | TBasic _, JStr s => (XOpaque s, Ok tt)
    | TStruct _, JObj m =>
      (XStruct (fun q => match q with
        | [k] => match lookup k m with Some (JStr s) => XOpaque s | _ => fields_of cur q end
        | _ => fields_of cur q end), Ok tt)
    | _, _ => (cur, Err "json: cannot unmarshal")
    end
  end.
Definition ex_ref : refmap := [("Circle", RPtrTo (TNamed 3)); ("Square", RPtrTo (TNamed 4))].
Definition circle := SStruct "Circle" None.
Definition square := SStruct "Square" None.
Definition ex_run (perm : list (string * json) -> list (string * json)) (om : list (string * svalue)) (ref : refmap)
    (cur : gval) (dat : option json) : gval * result unit :=
  json_unmarshal ex_env 9 ex_std ex_zero (fun _ _ => true) perm (SStruct "Top" (Some om)) ref (TNamed 0) cur dat.
Definition id_order (m : list (string * json)) := m.

(* -------------------------------------------------------------------- C11 *)

Theorem C11_default_is_smallest_key : forall V (m : list (string * V)) v,
  get_first_from_map m = Some v <->
  exists k, lookup k m = Some v /\ forall k', In k' (keys m) -> bytes_le k k'.
Proof. exact first_from_map. Qed.
Print Assumptions C11_default_is_smallest_key.

Theorem C11_order_independent : forall V (m m' : list (string * V)), NoDup (keys m) -> Permutation m m' ->
  get_first_from_map m = get_first_from_map m'.
Proof. exact first_perm. Qed.
Print Assumptions C11_order_independent.

Example C11_nonvacuous : get_first_from_map [("b", 1); ("Z", 2); ("a", 3); ("", 4)] = Some 4 /\
  get_first_from_map [("b", 1); ("Z", 2); ("a", 3)] = Some 2 /\ get_first_from_map ([] : list (string * nat)) = None.
Proof. repeat split. Qed.

(* -------------------------------------------------------------------- C14 *)

Theorem C14_explicit_wins : forall auto ref c r, NoDup (keys ref) ->
  lookup c ref = Some r -> (forall l, r <> RImpls l) -> lookup c (merge auto ref) = Some r.
Proof. exact merge_explicit. Qed.
Print Assumptions C14_explicit_wins.

(* Otherwise the discovered type is used, and never a list of implementations. *)
Theorem C14_discovered_otherwise : forall auto ref c, NoDup (keys ref) ->
  (lookup c ref = None \/ exists l, lookup c ref = Some (RImpls l)) ->
  lookup c (merge auto ref) = option_map (fun n => RPtrTo (TNamed n)) (lookup c auto).
Proof. exact merge_discovered. Qed.
Print Assumptions C14_discovered_otherwise.

(* Seen from outside: a field decoded with a class the caller gives holds that class. *)
Theorem C14_explicit_used : forall E depth std zero assignable perm, (forall m, Permutation (perm m) m) ->
  forall om ref t cur dat v fs l f q ft s t',
  succeeded E depth std zero assignable perm om ref t cur dat v fs l f q ft ->
  lookup (fname f) om = Some (VSingle s) -> lookup (class_of s) ref = Some (RPtrTo t') -> pointer_like E ft ->
  exists x, fields_of v q = XPtr t' x.
Proof. exact single_explicit. Qed.
Print Assumptions C14_explicit_used.

(* Circle is rebound by the caller to type Square. *)
Example C14_nonvacuous :
  let r := ex_run id_order [("Shape", VSingle circle)] [("Circle", RPtrTo (TNamed 4)); ("Shape", RImpls [Some (TPtr (TNamed 3))])]
    (ex_zero (TNamed 0)) (Some (JObj [("shape", JObj [("S", JStr "2")])])) in
  snd r = Ok tt /\ exists x, fields_of (fst r) ["Shape"] = XPtr (TNamed 4) x /\ fields_of x ["S"] = XOpaque "2".
Proof. split; [reflexivity|]. eexists; split; reflexivity. Qed.

(* -------------------------------------------------------------------- C15 *)

Theorem C15_without_spec_is_standard : forall E depth std zero assignable perm ref t cur dat c,
  json_unmarshal_top E depth std zero assignable perm None ref t cur dat = std t cur dat /\
  json_unmarshal_top E depth std zero assignable perm (Some (SStruct c None)) ref t cur dat = std t cur dat /\
  json_unmarshal_top E depth std zero assignable perm (Some (SStruct c (Some []))) ref t cur dat = std t cur dat.
Proof. repeat split. Qed.
Print Assumptions C15_without_spec_is_standard.

Example C15_nonvacuous : json_unmarshal_top ex_env 9 ex_std ex_zero (fun _ _ => true) id_order None []
  (TBasic "string") (XOpaque "old") (Some (JStr "new")) = (XOpaque "new", Ok tt) /\
  json_unmarshal_top ex_env 9 ex_std ex_zero (fun _ _ => true) id_order (Some circle) []
  (TBasic "string") (XOpaque "old") None = (XOpaque "old", Err "unexpected end of JSON input").
Proof. split; reflexivity. Qed.

(* -------------------------------------------------------------------- C16 *)

(* Full statement: C16_hidden_untouched_partial without its last hypothesis (refuted below).
   Proved: when no decodable field, promoted or not, has the name of the hidden field,
   whatever the outcome of the call. *)
Theorem C16_hidden_untouched_partial : forall E depth std zero assignable perm c om ref t cur dat v r fs l f,
  om <> [] ->
  json_unmarshal E depth std zero assignable perm (SStruct c (Some om)) ref t cur dat = (v, r) ->
  under E t = TStruct fs -> flat E fs l -> NoDup (map fname fs) -> In f fs -> hidden f ->
  (forall p g, In (p, g) l -> fname g <> fname f) ->
  fields_of v [fname f] = fields_of cur [fname f].
Proof. exact hidden_untouched. Qed.
Print Assumptions C16_hidden_untouched_partial.

(* At every depth: if every decodable field is the one Go's selector rule finds under its
   name, only decodable fields change. *)
Theorem C16_only_decodable_change_partial : forall E depth std zero assignable perm c om ref t cur dat v r fs l,
  om <> [] ->
  json_unmarshal E depth std zero assignable perm (SStruct c (Some om)) ref t cur dat = (v, r) ->
  under E t = TStruct fs -> flat E fs l ->
  (forall p f, In (p, f) l -> selects E fs (fname f) p (ftype f)) ->
  forall q, ~ In q (map fst l) -> fields_of v q = fields_of cur q.
Proof. exact only_flat_touched. Qed.
Print Assumptions C16_only_decodable_change_partial.

(* type Base struct { Name string }
   type T struct { Base; Name string `json:"-"` }: T.Name is overwritten, T.Base.Name not. *)
Definition shadow_env : env := [
  mkNamed "x/main" "T" (TStruct [GField "Base" true "" (TNamed 1); GField "Name" false "-" (TBasic "string")]);
  mkNamed "x/main" "Base" (TStruct [GField "Name" false "" (TBasic "string")])].
Theorem C16_untouched_refuted : exists om v,
  json_unmarshal shadow_env 9 ex_std ex_zero (fun _ _ => true) id_order (SStruct "T" (Some om)) [] (TNamed 0)
    (XStruct (fun q => XOpaque "secret")) (Some (JObj [("Name", JStr "overwritten")])) = (v, Ok tt) /\
  hidden (GField "Name" false "-" (TBasic "string")) /\
  fields_of v ["Name"] = XOpaque "overwritten" /\ fields_of v ["Base"; "Name"] = XOpaque "secret".
Proof.
  exists [("X", VSingle circle)]. eexists. split; [reflexivity|]. split; [right; left; reflexivity|]. split; reflexivity.
Qed.
Print Assumptions C16_untouched_refuted.

Example C16_nonvacuous :
  let r := ex_run id_order [("Shape", VSingle circle)] ex_ref (XStruct (fun q => XOpaque "old"))
    (Some (JObj [("shape", JObj []); ("Skip", JStr "s"); ("secret", JStr "s"); ("id", JStr "7")])) in
  snd r = Ok tt /\ fields_of (fst r) ["Skip"] = XOpaque "old" /\ fields_of (fst r) ["secret"] = XOpaque "old" /\
  fields_of (fst r) ["Base"; "ID"] = XOpaque "7".
Proof. repeat split. Qed.

(* -------------------------------------------------------------------- C17 *)

(* Success, at every nesting depth, means the specified result. *)
Theorem C17_result_as_specified : forall E depth std zero assignable perm, (forall m, Permutation (perm m) m) ->
  forall s ref t cur dat v, NoDup (keys ref) ->
  json_unmarshal E depth std zero assignable perm s ref t cur dat = (v, Ok tt) ->
  decoded E std zero s ref t cur dat v.
Proof. exact unmarshal_sound. Qed.
Print Assumptions C17_result_as_specified.

(* What can be decoded is decoded, to the specified result, at every sufficient call depth
   (no recursive slice, map or implementation type: C13). *)
Theorem C17_succeeds : forall E std zero assignable perm, (forall m, Permutation (perm m) m) ->
  forall s ref t cur dat, NoDup (keys ref) -> well_founded (fun u t => inside E (implementations ref) t u) ->
  decodable E std zero assignable ref s t cur dat ->
  exists d, forall depth, d <= depth -> exists v,
    json_unmarshal E depth std zero assignable perm s ref t cur dat = (v, Ok tt) /\
    decoded E std zero s ref t cur dat v.
Proof.
  intros E std zero assignable perm Hp s ref t cur dat Hn Hw Hd.
  destruct (unmarshal_total E std zero assignable perm Hp s ref t cur dat Hn Hw Hd) as [d H].
  exists d. intros depth Hdep. destruct (H depth Hdep) as [v Hv]. exists v. split; [exact Hv|].
  exact (unmarshal_sound E depth std zero assignable perm Hp s ref t cur dat v Hn Hv).
Qed.
Print Assumptions C17_succeeds.

Theorem C17_single_class : forall E depth std zero assignable perm, (forall m, Permutation (perm m) m) ->
  forall om ref t cur dat v fs l f q ft s,
  succeeded E depth std zero assignable perm om ref t cur dat v fs l f q ft ->
  lookup (fname f) om = Some (VSingle s) ->
  exists ref' ms t' x, merged E ref t ref' /\ members dat ms /\
    lookup (class_of s) ref' = Some (RPtrTo t') /\
    decoded E std zero s ref' t' (zero t') (jget E om (map snd l) f ms) x /\
    ((pointer_like E ft /\ fields_of v q = XPtr t' x) \/ (~ pointer_like E ft /\ fields_of v q = x)).
Proof. exact single_field. Qed.
Print Assumptions C17_single_class.

(* A class neither given by the caller nor found in the target type is never accepted. *)
Theorem C17_unknown_class_fails : forall E depth std zero assignable perm, (forall m, Permutation (perm m) m) ->
  forall c om ref t cur dat v r fs l p f s, om <> [] -> NoDup (keys ref) ->
  json_unmarshal E depth std zero assignable perm (SStruct c (Some om)) ref t cur dat = (v, r) ->
  under E t = TStruct fs -> flat E fs l -> In (p, f) l -> lookup (fname f) om = Some (VSingle s) ->
  (lookup (class_of s) ref = None \/ lookup (class_of s) ref = Some RNilVal \/
   exists i, lookup (class_of s) ref = Some (RImpls i)) ->
  (forall n, reaches E (implementations ref) (TPtr t) n -> ~ key_of E n (class_of s)) ->
  r <> Ok tt.
Proof. exact unknown_class. Qed.
Print Assumptions C17_unknown_class_fails.

(* Which text a field gets: the last value under its JSON name. *)
Theorem C17_field_text : forall E om fs f m, (forall g gs, In g fs -> ~ inlined E om g gs) ->
  NoDup (map json_name fs) -> NoDup (map fname fs) -> In f fs ->
  (forall k g, In k (keys m) -> In g fs -> fold_key k = fold_key (json_name g) -> k = json_name g) ->
  forall j, jget E om fs f m = Some j <-> entry m (json_name f) j.
Proof. exact jget_exact. Qed.
Print Assumptions C17_field_text.

(* An embedded pointer gets an object of the entries whose keys name its fields. *)
Theorem C17_embedded_text : forall E om fs1 f fs2 gs m, inlined E om f gs ->
  (forall g hs, In g (fs1 ++ fs2) -> ~ inlined E om g hs) -> (forall g hs, In g gs -> ~ inlined E [] g hs) ->
  NoDup (map json_name (fs1 ++ gs ++ fs2)) -> NoDup (map fname (fs1 ++ f :: fs2)) ->
  (forall k g, In k (keys m) -> In g (fs1 ++ gs ++ fs2) -> fold_key k = fold_key (json_name g) -> k = json_name g) ->
  forall keep : string -> bool,
  (forall k, keep k = true <-> exists g, In g gs /\ starts_upper (fname g) /\ ftag g <> "-" /\ named_in_json g k) ->
  jget E om (fs1 ++ f :: fs2) f m =
  match filter (fun kj => keep (fst kj)) m with [] => None | l => Some (JObj l) end.
Proof. exact jget_inlined. Qed.
Print Assumptions C17_embedded_text.

Theorem C17_json_name : forall f n, json_name f = n <-> named_in_json f n.
Proof. exact json_name_spec. Qed.
Print Assumptions C17_json_name.

(* Two levels: Top.Shape is a Top whose Shape is a Square. *)
Example C17_nonvacuous :
  let r := ex_run id_order [("Shape", VSingle (SStruct "Top" (Some [("Shape", VSingle square)])))] ex_ref
    (ex_zero (TNamed 0)) (Some (JObj [("name", JStr "n"); ("shape", JObj [("shape", JObj [("S", JStr "4")])])])) in
  snd r = Ok tt /\ fields_of (fst r) ["Name"] = XOpaque "n" /\
  exists x y, fields_of (fst r) ["Shape"] = XPtr (TNamed 0) x /\ fields_of x ["Shape"] = XPtr (TNamed 4) y /\
    fields_of y ["S"] = XOpaque "4".
Proof. split; [reflexivity|]. split; [reflexivity|]. eexists; eexists; repeat split. Qed.

(* An embedded pointer to Base, and one to a type that embeds Base itself: the id less deep
   wins, and names are also compared without case. *)
Example C17_embedded_nonvacuous :
  let E := (ex_env ++ [mkNamed "x/main" "Deep" (TStruct [GField "Base" true "" (TPtr (TNamed 1)); GField "D" false "" (TBasic "string");
                                                         GField "hid" false "" (TBasic "string")])])%list in
  let base := GField "Base" true "" (TPtr (TNamed 1)) in
  let deep := GField "Deep" true ",omitempty" (TNamed 5) in
  let fs := [GField "Name" false "name" (TBasic "string"); base; deep] in
  let m := [("id", JStr "1"); ("d", JStr "2"); ("hid", JStr "3"); ("ID", JStr "4"); ("Name", JStr "5")] in
  jget E [] fs base m = Some (JObj [("id", JStr "1"); ("ID", JStr "4")]) /\
  jget E [] fs deep m = Some (JObj [("d", JStr "2")]) /\
  jget E [] [deep] deep m = Some (JObj [("id", JStr "1"); ("d", JStr "2"); ("ID", JStr "4")]) /\
  jget E [("Base", VSingle circle)] [base] base m = None /\
  jget E [("Base", VSingle circle)] [base] base [("base", JNull)] = Some JNull.
Proof. repeat split. Qed.

(* The classes of ex_env: no slice, map or implementation type is recursive. *)
Example ex_no_recursion : forall ref, implementations ref = [] ->
  well_founded (fun u t => inside ex_env (implementations ref) t u).
Proof.
  intros ref ->.
  assert (Hd : forall t u, strip ex_env t u -> u = deref ex_env t) by apply strip_fun.
  assert (Hn : forall n u, ~ inside ex_env [] (TNamed n) u).
  { intros n u H. inversion H as [t v e Hs Hu|t v k e Hs Hu|t v ms l e Hs Hu Hl]; subst; try discriminate Hl;
      apply Hd in Hs; subst v; do 5 (destruct n as [|n]; [discriminate|]); destruct n; discriminate. }
  assert (Hp : forall t, (forall u, inside ex_env [] t u -> Acc (fun u t => inside ex_env [] t u) u) ->
     forall u, inside ex_env [] (TPtr t) u -> Acc (fun u t => inside ex_env [] t u) u).
  { intros t Ht u H. inversion H as [t' v e Hs Hu|t' v k e Hs Hu|t' v ms l e Hs Hu Hl]; subst; try discriminate Hl;
      apply Hd in Hs; simpl in Hs; subst v; apply Ht; destruct t; try discriminate.
    - do 5 (destruct n as [|n]; [discriminate|]); destruct n; discriminate.
    - eapply in_slice; [apply strip_none; discriminate|exact Hu].
    - do 5 (destruct n as [|n]; [discriminate|]); destruct n; discriminate.
    - eapply CollectSpec.in_map; [apply strip_none; discriminate|exact Hu]. }
  intros t. induction t as [n|t IH|t IH|t IH|k _ t IH|fs|ms|b]; constructor; intros u H.
  - exfalso; eapply Hn; eauto.
  - eapply Hp; [|exact H]. intros v Hv. inversion IH as [IH']. apply IH'; exact Hv.
  - inversion H as [t' v e Hs Hu|t' v k e Hs Hu|t' v ms l e Hs Hu Hl]; subst; try discriminate Hl;
      apply Hd in Hs; simpl in Hs; subst v; inversion Hu; subst; exact IH.
  - inversion H as [t' v e Hs Hu|t' v k e Hs Hu|t' v ms l e Hs Hu Hl]; subst; try discriminate Hl;
      apply Hd in Hs; simpl in Hs; subst v; inversion Hu.
  - inversion H as [t' v e Hs Hu|t' v k' e Hs Hu|t' v ms l e Hs Hu Hl]; subst; try discriminate Hl;
      apply Hd in Hs; simpl in Hs; subst v; inversion Hu; subst; exact IH.
  - inversion H as [t' v e Hs Hu|t' v k e Hs Hu|t' v ms l e Hs Hu Hl]; subst; try discriminate Hl;
      apply Hd in Hs; simpl in Hs; subst v; inversion Hu.
  - inversion H as [t' v e Hs Hu|t' v k e Hs Hu|t' v ms' l e Hs Hu Hl]; subst; try discriminate Hl;
      apply Hd in Hs; simpl in Hs; subst v; inversion Hu.
  - inversion H as [t' v e Hs Hu|t' v k e Hs Hu|t' v ms l e Hs Hu Hl]; subst; try discriminate Hl;
      apply Hd in Hs; simpl in Hs; subst v; inversion Hu.
Qed.

Definition ex_top : list gfield := match under ex_env (TNamed 0) with TStruct fs => fs | _ => [] end.
Definition ex_paths : list (list string) := [["Base"; "ID"]; ["Name"]; ["Shape"]; ["List"]; ["M"]; ["M2"]].
Definition ex_decoded_fields : list gfield :=
  [GField "ID" false "id" (TBasic "string"); GField "Name" false "name,omitempty" (TBasic "string");
   GField "Shape" false "shape" (TNamed 2); GField "List" false "list" (TSlice (TNamed 2));
   GField "M" false "m" (TMap (TBasic "string") (TNamed 2));
   GField "M2" false "m2" (TMap (TArray (TBasic "string")) (TNamed 2))].
Example ex_flat : flat ex_env ex_top (combine ex_paths ex_decoded_fields).
Proof.
  destruct (loop_fields_flat ex_env 9 [] ex_top [] _ eq_refl) as (l & Hl & He).
  assert (H : l = combine ex_paths ex_decoded_fields); [|rewrite <- H; exact Hl].
  rewrite <- (map_id l). rewrite (map_ext _ (fun pf : list string * gfield =>
    (fun x => (nf_path x, nf_field x)) (NF (snd pf) ([] ++ fst pf) (kind_of ex_env [] (snd pf))))) by (intros [p f]; reflexivity).
  rewrite <- (map_map _ (fun x => (nf_path x, nf_field x))), <- He. reflexivity.
Qed.
Example ex_proper : proper ex_env ex_top.
Proof.
  constructor.
  - cbn. repeat (constructor; [cbn; intuition discriminate|]). constructor.
  - intros f gs Hf Ha Hu. cbn in Hf. repeat (destruct Hf as [<-|Hf]; [try discriminate Ha|]); [|destruct Hf].
    cbn in Hu. injection Hu as <-. constructor; [repeat (constructor; [cbn; intuition discriminate|]); constructor|].
    intros f gs [<-|[]] Ha'. discriminate.
Qed.

(* A decodable text: the embedded field, a class the caller gave, a list of two classes, and
   the class "main.Top", found in the target, at a second level. *)
Example C17_decodable : decodable ex_env ex_std ex_zero (fun _ _ => true) ex_ref
  (SStruct "Top" (Some [("Shape", VSingle (SStruct "main.Top" (Some [("Shape", VSingle square)])));
                        ("List", VList [circle; square])]))
  (TNamed 0) (ex_zero (TNamed 0))
  (Some (JObj [("id", JStr "7"); ("shape", JObj [("shape", JObj [("S", JStr "4")])]);
               ("list", JArr [JObj [("R", JStr "1")]; JNull])])).
Proof.
  assert (Hgiven : forall ref' r c u, merged ex_env r (TNamed 0) ref' -> lookup c r = Some (RPtrTo u) -> lookup c ref' = Some (RPtrTo u)).
  { intros ref' r c u Hm Hl. specialize (Hm c). rewrite Hl in Hm. exact Hm. }
  eapply able_spec; [discriminate|reflexivity|exact ex_proper|exact ex_flat| |apply mem_obj|].
  { cbn. repeat (constructor; [cbn; intuition discriminate|]). constructor. }
  intros ref' p f [Hm Hk] Hin.
  assert (Hc := Hgiven ref' ex_ref "Circle" (TNamed 3) Hm eq_refl). assert (Hs := Hgiven ref' ex_ref "Square" (TNamed 4) Hm eq_refl).
  assert (Ht : lookup "main.Top" ref' = Some (RPtrTo (TNamed 0))).
  { apply Hk.
    - split.
      + intros n m d d' _ _ Hn Hn'. 
        do 5 (destruct n as [|n]; [injection Hn as <-; do 5 (destruct m as [|m]; [injection Hn' as <-; cbn; congruence|]); destruct m; discriminate|]).
        destruct n; discriminate.
      + intros n d _ Hn.
        do 5 (destruct n as [|n]; [injection Hn as <-; split; [discriminate|cbn; intuition discriminate]|]). destruct n; discriminate.
    - intros r Hr. discriminate Hr.
    - eapply re_here. split; [apply strip_ptr; reflexivity|reflexivity].
    - eexists. split; [reflexivity|]. right. split; [discriminate|]. exists "main". split; [|reflexivity].
      split; [cbn; intuition discriminate|right; exists "x"; reflexivity]. }
  assert (Hplain : forall r s0 oj, lookup (class_of s0) r = Some (RPtrTo (TNamed 3)) \/ lookup (class_of s0) r = Some (RPtrTo (TNamed 4)) ->
    s0 = circle \/ s0 = square -> oj = Some JNull \/ (exists m, oj = Some (JObj m)) ->
    exists t, makes ex_zero (decodable ex_env ex_std ex_zero (fun _ _ => true) r) r s0 oj t).
  { intros r s0 oj Hl Hs0 Hj.
    assert (Hstd : forall t, t = TNamed 3 \/ t = TNamed 4 -> exists v, ex_std t (ex_zero t) oj = (v, Ok tt)).
    { intros t [->| ->]; destruct Hj as [->|[m ->]]; eexists; reflexivity. }
    destruct Hl as [Hl|Hl]; [exists (TNamed 3)|exists (TNamed 4)]; (split; [exact Hl|]);
      (destruct (Hstd _ ltac:(auto)) as [v Hv]); destruct Hs0 as [->| ->]; (eapply able_std; [left; reflexivity|exact Hv]). }
  cbn in Hin. destruct Hin as [Hf|[Hf|[Hf|[Hf|[Hf|[Hf|[]]]]]]]; injection Hf as <- <-.
  - eexists. eexists. split; [apply (field_by_name_selects ex_env 9); reflexivity|].
    eapply tk_plain; reflexivity.
  - eexists. eexists. split; [apply (field_by_name_selects ex_env 9); reflexivity|].
    apply tk_absent; reflexivity.
  - eexists. eexists. split; [apply (field_by_name_selects ex_env 9); reflexivity|].
    eapply tk_single_ptr with (t := TNamed 0); [reflexivity| |left; eexists; reflexivity|reflexivity].
    split; [exact Ht|].
    eapply able_spec; [discriminate|reflexivity|exact ex_proper|exact ex_flat| |apply mem_obj|].
    { cbn. repeat (constructor; [cbn; intuition discriminate|]). constructor. }
    intros ref2 p f [Hm2 _] Hin. assert (Hs2 := Hgiven ref2 ref' "Square" (TNamed 4) Hm2 Hs).
    cbn in Hin. destruct Hin as [Hf|[Hf|[Hf|[Hf|[Hf|[Hf|[]]]]]]]; injection Hf as <- <-;
      (eexists; eexists; split; [apply (field_by_name_selects ex_env 9); reflexivity|]); try (apply tk_absent; reflexivity).
    destruct (Hplain ref2 square (Some (JObj [("S", JStr "4")])) (or_intror Hs2) ltac:(auto) ltac:(eauto)) as [t Hmk].
    eapply tk_single_ptr; [reflexivity|exact Hmk|left; eexists; reflexivity|reflexivity].
  - eexists. eexists. split; [apply (field_by_name_selects ex_env 9); reflexivity|].
    eapply tk_list with (specs := [circle; square]); [reflexivity|discriminate|reflexivity|constructor|reflexivity|].
    intros k j s0 Hj Hp.
    assert (Hs0 : s0 = circle \/ s0 = square).
    { destruct Hp as [Hp|[_ Hp]]; [|left; cbn in Hp; congruence].
      destruct k as [|[|k]]; cbn in Hp; [left; congruence|right; congruence|destruct k; discriminate]. }
    destruct (Hplain ref' s0 (Some j)) as [t Hmk]; [destruct Hs0 as [->| ->]; auto|exact Hs0| |exists t; auto].
    destruct k as [|[|k]]; cbn in Hj; [injection Hj as <-; eauto|injection Hj as <-; auto|destruct k; discriminate].
  - eexists. eexists. split; [apply (field_by_name_selects ex_env 9); reflexivity|].
    apply tk_absent; reflexivity.
  - eexists. eexists. split; [apply (field_by_name_selects ex_env 9); reflexivity|].
    apply tk_absent; reflexivity.
Qed.

Example C17_unknown_nonvacuous : snd (ex_run id_order [("Shape", VSingle (SStruct "Nope" None))] ex_ref
  (ex_zero (TNamed 0)) (Some (JObj [("shape", JObj [])]))) = Err "class ref not found".
Proof. reflexivity. Qed.

(* -------------------------------------------------------------------- C18 *)

Theorem C18_list_spec : forall E depth std zero assignable perm, (forall m, Permutation (perm m) m) ->
  forall om ref t cur dat v fs l f q ft specs e,
  succeeded E depth std zero assignable perm om ref t cur dat v fs l f q ft ->
  lookup (fname f) om = Some (VList specs) -> under E (ftype f) = TSlice e ->
  exists ref' ms js r, merged E ref t ref' /\ members dat ms /\ elements (jget E om (map snd l) f ms) js /\
    fields_of v q = XSlice r /\ length r = length js /\
    forall k j, nth_error js k = Some j -> exists s t' x,
      (nth_error specs k = Some s \/ (length specs <= k /\ nth_error specs 0 = Some s)) /\
      lookup (class_of s) ref' = Some (RPtrTo t') /\
      decoded E std zero s ref' t' (zero t') (Some j) x /\ nth_error r k = Some (XPtr t' x).
Proof. exact list_field. Qed.
Print Assumptions C18_list_spec.

Example C18_nonvacuous : exists a b c,
  fields_of (fst (ex_run id_order [("List", VList [circle; square])] ex_ref (ex_zero (TNamed 0))
    (Some (JObj [("list", JArr [JObj [("R", JStr "1")]; JObj [("S", JStr "2")]; JObj [("R", JStr "3")]])]))))
  ["List"] = XSlice [XPtr (TNamed 3) a; XPtr (TNamed 4) b; XPtr (TNamed 3) c] /\
  fields_of a ["R"] = XOpaque "1" /\ fields_of b ["S"] = XOpaque "2" /\ fields_of c ["R"] = XOpaque "3".
Proof. do 3 eexists; repeat split. Qed.

(* -------------------------------------------------------------------- C19 *)

Theorem C19_map_spec : forall E depth std zero assignable perm, (forall m, Permutation (perm m) m) ->
  forall om ref t cur dat v fs l f q ft specs,
  succeeded E depth std zero assignable perm om ref t cur dat v fs l f q ft ->
  lookup (fname f) om = Some (VMap specs) ->
  exists ref' ms es r, merged E ref t ref' /\ members dat ms /\ entries (jget E om (map snd l) f ms) es /\
    fields_of v q = XMap r /\ NoDup (keys r) /\ (forall k, In k (keys r) <-> In k (keys es)) /\
    forall k j, entry es k j -> exists s t' x,
      (lookup k specs = Some s \/ (lookup k specs = None /\ exists k', smallest specs k' s)) /\
      lookup (class_of s) ref' = Some (RPtrTo t') /\
      decoded E std zero s ref' t' (zero t') (Some j) x /\ lookup k r = Some (XPtr t' x).
Proof. exact map_field. Qed.
Print Assumptions C19_map_spec.

(* Iteration order never matters, for success or result, unless a list spec with several
   entries meets a map field somewhere. *)
Theorem C19_order_independent : forall E depth std zero assignable perm perm',
  (forall m, Permutation (perm m) m) -> (forall m, Permutation (perm' m) m) ->
  forall s ref t cur dat v, NoDup (keys ref) -> order_free E s ref t ->
  json_unmarshal E depth std zero assignable perm s ref t cur dat = (v, Ok tt) ->
  exists v', json_unmarshal E depth std zero assignable perm' s ref t cur dat = (v', Ok tt) /\ same_val v v'.
Proof. exact unmarshal_agrees. Qed.
Print Assumptions C19_order_independent.

Example C19_nonvacuous : exists a b c,
  fields_of (fst (ex_run id_order [("M", VMap [("z", circle); ("q", square)])] ex_ref (ex_zero (TNamed 0))
    (Some (JObj [("m", JObj [("z", JObj [("R", JStr "1")]); ("other", JObj [("S", JStr "2")]); ("q", JObj [])])]))))
  ["M"] = XMap [("z", XPtr (TNamed 3) a); ("other", XPtr (TNamed 4) b); ("q", XPtr (TNamed 4) c)] /\
  fields_of a ["R"] = XOpaque "1" /\ fields_of b ["S"] = XOpaque "2".
Proof. do 3 eexists; repeat split. Qed.

Example C19_order_free_met : order_free ex_env (SStruct "Top" (Some [("M", VMap [("z", circle); ("q", square)])])) ex_ref (TNamed 0).
Proof.
  constructor.
  - intros om fs l ref' p f sv s t' H _ _ _ Hlk Hin _ _. inversion H; subst. apply lookup_In in Hlk.
    destruct Hlk as [Hlk|[]]. inversion Hlk; subst.
    assert (Hs : s = circle \/ s = square).
    { inversion Hin as [| |? ? ? Hi|]; subst. destruct Hi as [Hi|[Hi|[]]]; inversion Hi; auto. }
    destruct Hs; subst; constructor; intros; discriminate.
  - intros om fs l p f specs kt e H _ _ _ Hlk _. inversion H; subst. apply lookup_In in Hlk.
    destruct Hlk as [Hlk|[]]. inversion Hlk.
Qed.

(* -------------------------------------------------------------------- C20 *)

(* Full statement: an element with keys (a,b) gets the class of (a,b) if the spec has it and
   the spec's first class otherwise (refuted below).  Proved: the rule the code follows:
   under an unknown first key a the entries of the smallest first key apply (picks_map2). *)
Theorem C20_map2_spec_partial : forall E depth std zero assignable perm, (forall m, Permutation (perm m) m) ->
  forall om ref t cur dat v fs l f q ft specs,
  succeeded E depth std zero assignable perm om ref t cur dat v fs l f q ft ->
  lookup (fname f) om = Some (VMap2 specs) ->
  exists ref' ms es r, merged E ref t ref' /\ members dat ms /\ entries (jget E om (map snd l) f ms) es /\
    fields_of v q = XMap2 r /\ NoDup (keys r) /\
    (forall a b, In (a, b) (keys r) <-> exists j es', entry es a j /\ entries (Some j) es' /\ In b (keys es')) /\
    forall a j es' b j', entry es a j -> entries (Some j) es' -> entry es' b j' -> exists s t' x,
      picks_map2 specs a b s /\ lookup (class_of s) ref' = Some (RPtrTo t') /\
      decoded E std zero s ref' t' (zero t') (Some j') x /\ lookup (a, b) r = Some (XPtr t' x).
Proof. exact map2_field. Qed.
Print Assumptions C20_map2_spec_partial.

(* Spec (a,x)->Circle, (a,y)->Square: the element (b,y) becomes a Square, the element (a,z)
   and (b,z) a Circle. *)
Theorem C20_first_class_default_refuted : exists om, om = [("M2", VMap2 [("a", [("x", circle); ("y", square)])])] /\
  exists x y z, fields_of (fst (ex_run id_order om ex_ref (ex_zero (TNamed 0))
    (Some (JObj [("m2", JObj [("b", JObj [("y", JObj []); ("z", JObj [])]); ("a", JObj [("z", JObj [])])])]))))
  ["M2"] = XMap2 [(("b", "y"), XPtr (TNamed 4) x); (("b", "z"), XPtr (TNamed 3) y); (("a", "z"), XPtr (TNamed 3) z)].
Proof. eexists. split; [reflexivity|]. do 3 eexists. reflexivity. Qed.
Print Assumptions C20_first_class_default_refuted.

(* -------------------------------------------------------------------- C21 *)

(* Full statement: the next theorem for every list spec (refuted below).  Proved: for list
   specs with one entry; with several, each value has one of the listed classes. *)
Theorem C21_list_on_map_partial : forall E depth std zero assignable perm, (forall m, Permutation (perm m) m) ->
  forall om ref t cur dat v fs l f q ft s0 kt e,
  succeeded E depth std zero assignable perm om ref t cur dat v fs l f q ft ->
  lookup (fname f) om = Some (VList [s0]) -> under E (ftype f) = TMap kt e ->
  exists ref' ms es r, merged E ref t ref' /\ members dat ms /\ entries (jget E om (map snd l) f ms) es /\
    fields_of v q = XMap r /\ NoDup (keys r) /\ (forall k, In k (keys r) <-> In k (keys es)) /\
    forall k j, entry es k j -> exists t' x,
      lookup (class_of s0) ref' = Some (RPtrTo t') /\
      decoded E std zero s0 ref' t' (zero t') (Some j) x /\ lookup k r = Some (XPtr t' x).
Proof. exact listmap_field. Qed.
Print Assumptions C21_list_on_map_partial.

Theorem C21_list_on_map_some_class_partial : forall E depth std zero assignable perm, (forall m, Permutation (perm m) m) ->
  forall om ref t cur dat v fs l f q ft specs kt e,
  succeeded E depth std zero assignable perm om ref t cur dat v fs l f q ft ->
  lookup (fname f) om = Some (VList specs) -> under E (ftype f) = TMap kt e ->
  exists ref' ms es r, merged E ref t ref' /\ members dat ms /\ entries (jget E om (map snd l) f ms) es /\
    fields_of v q = XMap r /\ NoDup (keys r) /\ (forall k, In k (keys r) <-> In k (keys es)) /\
    forall k j, entry es k j -> exists s t' x, In s specs /\
      lookup (class_of s) ref' = Some (RPtrTo t') /\
      decoded E std zero s ref' t' (zero t') (Some j) x /\ lookup k r = Some (XPtr t' x).
Proof. exact listmap_field_any. Qed.
Print Assumptions C21_list_on_map_some_class_partial.

(* Two iteration orders of one JSON object give key p different classes. *)
Theorem C21_list_on_map_refuted : exists perm perm' om dat x x' m m',
  (forall l, Permutation (perm l) l) /\ (forall l, Permutation (perm' l) l) /\
  fields_of (fst (ex_run perm om ex_ref (ex_zero (TNamed 0)) dat)) ["M"] = XMap m /\
  fields_of (fst (ex_run perm' om ex_ref (ex_zero (TNamed 0)) dat)) ["M"] = XMap m' /\
  lookup "p" m = Some (XPtr (TNamed 3) x) /\ lookup "p" m' = Some (XPtr (TNamed 4) x').
Proof.
  exists id_order, (@rev _), [("M", VList [circle; square])], (Some (JObj [("m", JObj [("p", JObj []); ("q", JObj [])])])).
  do 4 eexists. split; [intros; apply Permutation_refl|]. split; [intros; apply Permutation_sym, Permutation_rev|].
  repeat split.
Qed.
Print Assumptions C21_list_on_map_refuted.

Example C21_nonvacuous : exists a b,
  fields_of (fst (ex_run (@rev _) [("M", VList [circle])] ex_ref (ex_zero (TNamed 0))
    (Some (JObj [("m", JObj [("p", JObj []); ("q", JObj [])])])))) ["M"]
  = XMap [("q", XPtr (TNamed 3) a); ("p", XPtr (TNamed 3) b)].
Proof. do 2 eexists; reflexivity. Qed.

(* -------------------------------------------------------------------- C22 *)

(* Full statement: whenever the result is not Ok, v = cur (refuted below).  Proved: text that
   is not an object changes nothing, and in general every field is either as before or
   completely decoded. *)
Theorem C22_not_an_object_unchanged_partial : forall E depth std zero assignable perm c om ref t cur dat v r, om <> [] ->
  json_unmarshal E depth std zero assignable perm (SStruct c (Some om)) ref t cur dat = (v, r) ->
  (forall ms, ~ members dat ms) -> v = cur.
Proof. exact not_object_unchanged. Qed.
Print Assumptions C22_not_an_object_unchanged_partial.

Theorem C22_each_field_old_or_decoded_partial : forall E depth std zero assignable perm, (forall m, Permutation (perm m) m) ->
  forall c om ref t cur dat v r fs l, om <> [] -> NoDup (keys ref) ->
  json_unmarshal E depth std zero assignable perm (SStruct c (Some om)) ref t cur dat = (v, r) ->
  under E t = TStruct fs -> flat E fs l -> r <> Ok tt ->
  v = cur \/
  (exists ms ref', members dat ms /\ merged E ref t ref' /\
   forall q, fields_of v q = fields_of cur q \/
     exists p f ft, In (p, f) l /\ selects E fs (fname f) q ft /\
       field_value E std zero (decoded E std zero) ref' (lookup (fname f) om) f ft
         (jget E om (map snd l) f ms) (fields_of v q)).
Proof. exact unmarshal_fail. Qed.
Print Assumptions C22_each_field_old_or_decoded_partial.

(* The field before the failing one has been overwritten. *)
Theorem C22_unchanged_on_error_refuted : exists om dat v e,
  ex_run id_order om ex_ref (XStruct (fun _ => XOpaque "old")) dat = (v, Err e) /\
  fields_of v ["Name"] = XOpaque "new".
Proof.
  exists [("Shape", VSingle (SStruct "Nope" None))], (Some (JObj [("name", JStr "new"); ("shape", JObj [])])).
  do 2 eexists. split; reflexivity.
Qed.
Print Assumptions C22_unchanged_on_error_refuted.

(* -------------------------------------------------------------------- C23 *)

(* Full statement: a field without JSON text keeps its prior value (refuted below).  Proved:
   it becomes the zero value of its type, so a field that was zero keeps its value. *)
Theorem C23_plain_fields_partial : forall E depth std zero assignable perm, (forall m, Permutation (perm m) m) ->
  forall om ref t cur dat v fs l f q ft,
  succeeded E depth std zero assignable perm om ref t cur dat v fs l f q ft -> lookup (fname f) om = None ->
  exists ms, members dat ms /\
    match jget E om (map snd l) f ms with
    | None => fields_of v q = zero (ftype f)
    | Some j => std (ftype f) (zero (ftype f)) (Some j) = (fields_of v q, Ok tt)
    end.
Proof. exact plain_field. Qed.
Print Assumptions C23_plain_fields_partial.

Theorem C23_absent_keeps_value_refuted : exists om dat v,
  ex_run id_order om ex_ref (XStruct (fun _ => XOpaque "old")) dat = (v, Ok tt) /\
  fields_of v ["Name"] = XOpaque "" /\ fields_of v ["List"] = XSlice [].
Proof.
  exists [("Shape", VSingle circle); ("List", VList [circle])], (Some (JObj [("shape", JObj [])])).
  eexists. repeat split.
Qed.
Print Assumptions C23_absent_keeps_value_refuted.

Example C23_nonvacuous :
  let r := ex_run id_order [("Shape", VSingle circle)] ex_ref (XStruct (fun q => XOpaque "old"))
    (Some (JObj [("shape", JNull); ("NAME", JStr "folded")])) in
  snd r = Ok tt /\ fields_of (fst r) ["Name"] = XOpaque "folded" /\ fields_of (fst r) ["Base"; "ID"] = XOpaque "".
Proof. repeat split. Qed.
