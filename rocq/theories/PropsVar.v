(* The properties of references and calls in documents. *)

From Verif Require Import Base CtyModel HclModel HclSpec HclParse HclDecode TreeModel TreeSpec TreeProofs VarModel VarSpec VarTree VarProofs VarGroup VarBody VarStruct VarPlain VarSession.

(* ----- for the examples: texts, sums, orders ----- *)

Definition show (v : CtyModel.cval) : result string :=
  match v with CStr s => Ok s | CNum d => Ok (dec_Z (num d)) | _ => Err "not a text" end.
Definition plus (o : string) (a b : CtyModel.cval) : result CtyModel.cval :=
  match a, b with
  | CNum x, CNum y => if String.eqb o "+" then Ok (CNum (mkD (num x + num y) 0)) else Err "operator"
  | _, _ => Err "not numbers"
  end.
Definition same_text (s : string) : string := s.
Definition forward : order := fun _ _ ks => ks.
Definition backward : order := fun _ _ ks => rev ks.
Lemma forward_perm : forall p site ks, Permutation ks (forward p site ks).
Proof. intros. apply Permutation_refl. Qed.
Lemma backward_perm : forall p site ks, Permutation ks (backward p site ks).
Proof. intros. apply Permutation_rev. Qed.
Definition whole (z : Z) : CtyModel.cval := CNum (mkD z 0).
Definition random : list (string * hfunc) := [("random", fun _ => Ok (CStr "xyzzy"))].

(* ----- C76: decoding a document into maps and lists ----- *)

(* Whatever the order of the loops over maps, the result is what the document says when every
   reference stands for the value of the attribute it names in an enclosing body, or of the
   value given beforehand. *)
Theorem C76_lexical : forall norm to_text binary fs given b x ord,
  NoDup (map fst given) -> (forall k, In k (map fst given) -> ~ In k (map fst (vb_attrs b))) ->
  well_named (value_at given b) (body_at b) ->
  body_gives norm to_text binary fs (given_env given) [] b x ->
  (forall p site ks, Permutation ks (ord p site ks)) ->
  exists h', decode_vbody norm to_text binary (Some 0) fs ord b (given_tree given) 0 = Ok (h', x).
Proof. exact document_gives. Qed.
Print Assumptions C76_lexical.

(* So a document says one thing. *)
Theorem C76_one_meaning : forall norm to_text binary fs given b x y,
  NoDup (map fst given) -> (forall k, In k (map fst given) -> ~ In k (map fst (vb_attrs b))) ->
  well_named (value_at given b) (body_at b) ->
  body_gives norm to_text binary fs (given_env given) [] b x ->
  body_gives norm to_text binary fs (given_env given) [] b y -> x = y.
Proof.
  intros norm to_text binary fs given b x y Hn Hd Hw Hx Hy.
  destruct (document_gives norm to_text binary fs given b x forward Hn Hd Hw Hx forward_perm) as [h1 E1].
  destruct (document_gives norm to_text binary fs given b y forward Hn Hd Hw Hy forward_perm) as [h2 E2].
  rewrite E1 in E2. inversion E2. reflexivity.
Qed.
Print Assumptions C76_one_meaning.

(* folder = "__test__", version = 2, id = random(6), and a job that refers to them; region is
   given beforehand. *)
Definition pipeline : vbody :=
  VBody [("folder", VStr "__test__"); ("version", VNum 2); ("id", VCall "random" [VNum 6])]
    [("job", ["e2e"], VBody [("dir", VRef "var" [SAttr "folder"]); ("py", VBin "+" (VRef "version" []) (VNum 6))]
       [("slack", [], VBody [("message", VTpl [VRef "id" []; VStr " in "; VRef "region" []; VStr "/"; VRef "job" [SAttr "e2e"; SAttr "dir"]])] [])])].
Definition pipeline_data : native :=
  NMap [("folder", NStr "__test__"); ("version", NInt 2); ("id", NStr "xyzzy");
        ("job", NMap [("e2e", NMap [("dir", NStr "__test__"); ("py", NInt 8);
           ("slack", NMap [("message", NStr "xyzzy in west/__test__")])])])].
Definition region : list (string * CtyModel.cval) := [("region", CStr "west")].

Ltac mean_ref path rest := eapply me_ref with (names := path) (rest := rest); [simpl; tauto| |constructor].
Lemma bare_ref : forall n, n <> "var" -> refers n [] [n] [].
Proof. intros n Hn. apply (ref_bare n [] [] [] Hn). constructor. Qed.

Example C76_pipeline_gives : body_gives same_text show plus (FHcl random) (given_env region) [] pipeline pipeline_data.
Proof.
  unfold pipeline, pipeline_data.
  eapply (bg _ _ _ _ _ [] _ _ [("folder", NStr "__test__"); ("version", NInt 2); ("id", NStr "xyzzy")] _ [] [_] []).
  - simpl. repeat (constructor; [simpl; intuition discriminate|]). constructor.
  - repeat constructor.
  - eapply at_value; [reflexivity|constructor|reflexivity|]. eapply at_value; [reflexivity|constructor|reflexivity|].
    apply at_value with (v := CStr "xyzzy"); [reflexivity| |reflexivity|constructor].
    eapply me_call; [reflexivity|discriminate|discriminate|reflexivity|repeat constructor|reflexivity].
  - constructor.
  - eapply ms_cons; [repeat constructor; intros []| |constructor].
    eapply la_cons; [|constructor].
    eapply (bg _ _ _ _ _ _ _ _ [("dir", NStr "__test__"); ("py", NInt 8)] _ [_] [] []).
    + simpl. repeat (constructor; [simpl; intuition discriminate|]). constructor.
    + repeat constructor.
    + apply at_value with (v := CStr "__test__"); [reflexivity| |reflexivity|].
      { eapply me_ref with (names := ["folder"]) (rest := []); [left; reflexivity| |constructor].
        apply (ref_var [SAttr "folder"] ["folder"] []). repeat constructor. }
      apply at_value with (v := whole 8); [reflexivity| |reflexivity|constructor].
      apply me_bin with (x := whole 2) (y := whole 6); [|apply me_num|reflexivity].
      eapply me_ref with (names := ["version"]) (rest := []); [right; left; reflexivity| |constructor].
      apply bare_ref. discriminate.
    + eapply (bs_cons _ _ _ _ _ _ _ _ _ [_]); [|constructor].
      eapply nu_cons; [|constructor].
      eapply (bg _ _ _ _ _ _ _ _ [_] _ [] [] []); [repeat constructor; intros []|constructor| |constructor|constructor|constructor].
      apply at_value with (v := CStr "xyzzy in west/__test__"); [reflexivity| |reflexivity|constructor].
      eapply me_tpl with (vs := [CStr "xyzzy"; CStr " in "; CStr "west"; CStr "/"; CStr "__test__"])
        (ts := ["xyzzy"; " in "; "west"; "/"; "__test__"]).
      * apply am_cons.
        { eapply me_ref with (names := ["id"]) (rest := []); [simpl; tauto| |constructor]. apply bare_ref. discriminate. }
        apply am_cons; [constructor|]. apply am_cons.
        { eapply me_ref with (names := ["region"]) (rest := []); [simpl; tauto| |constructor]. apply bare_ref. discriminate. }
        apply am_cons; [constructor|]. apply am_cons; [|constructor].
        eapply me_ref with (names := ["job"; "e2e"; "dir"]) (rest := []); [simpl; tauto| |constructor].
        apply (ref_bare "job" [SAttr "e2e"; SAttr "dir"] ["e2e"; "dir"] []); [discriminate|repeat constructor].
      * repeat constructor.
    + constructor.
    + constructor.
  - constructor.
Qed.

Definition slack_body : vbody :=
  VBody [("message", VTpl [VRef "id" []; VStr " in "; VRef "region" []; VStr "/"; VRef "job" [SAttr "e2e"; SAttr "dir"]])] [].
Definition job_body : vbody :=
  VBody [("dir", VRef "var" [SAttr "folder"]); ("py", VBin "+" (VRef "version" []) (VNum 6))] [("slack", [], slack_body)].
Lemma slack_inner : forall P R c, inner block_at P slack_body R c -> R = P /\ c = slack_body.
Proof.
  intros P R c H. inversion H; subst; [auto|]. inversion H0; subst; simpl in *.
  - destruct i; discriminate.
  - contradiction.
  - contradiction.
Qed.
Lemma job_inner : forall P R c, inner block_at P job_body R c ->
  (R = P /\ c = job_body) \/ (R = P ++ ["slack"; "0"] /\ c = slack_body).
Proof.
  intros P R c H. inversion H; subst; [auto|]. right. inversion H0; subst; simpl in *.
  - destruct (string_dec t "slack") as [->|]; [|destruct i; discriminate].
    destruct i as [|[|i]]; [|discriminate|discriminate]. match goal with E : nth_error _ _ = Some _ |- _ => inversion E; subst end.
    match goal with E : inner _ _ _ _ _ |- _ => apply slack_inner in E; simpl in E; exact E end.
  - contradiction.
  - contradiction.
Qed.
Lemma pipeline_inner : forall R c, inner block_at [] pipeline R c ->
  (R = [] /\ c = pipeline) \/ (R = ["job"; "e2e"] /\ c = job_body) \/ (R = ["job"; "e2e"; "slack"; "0"] /\ c = slack_body).
Proof.
  intros R c H. inversion H; subst; [auto|]. right. inversion H0; subst; simpl in *.
  - destruct i; discriminate.
  - destruct (string_dec t "job") as [->|]; [|contradiction]. match goal with E : In _ _ |- _ => simpl in E; destruct E as [E|[]]; inversion E; subst end.
    match goal with E : inner _ _ _ _ _ |- _ => apply job_inner in E; exact E end.
  - contradiction.
Qed.
Lemma pipeline_value : forall Q k, value_at region pipeline Q k ->
  In (Q, k) [([], "region"); ([], "folder"); ([], "version"); ([], "id"); (["job"; "e2e"], "dir"); (["job"; "e2e"], "py");
             (["job"; "e2e"; "slack"; "0"], "message")].
Proof.
  intros Q k [[-> [<-|[]]]|(R & c & n & e & Hi & Ha & He)]; [simpl; tauto|].
  apply pipeline_inner in Hi. destruct Hi as [[-> ->]|[[-> ->]|[-> ->]]]; simpl in Ha;
    repeat (destruct Ha as [Ha|Ha]; [inversion Ha; subst; inversion He; subst; simpl; tauto|]); contradiction.
Qed.
Lemma pipeline_body : forall R, body_at pipeline R ->
  In R [[]; ["job"; "e2e"]; ["job"; "e2e"; "slack"; "0"]].
Proof.
  intros R [c H]. apply pipeline_inner in H. simpl. intuition congruence.
Qed.
Example C76_pipeline_names : well_named (value_at region pipeline) (body_at pipeline).
Proof.
  split; [|split].
  - intros Q k R rest Hv Hb E. apply pipeline_value in Hv. apply pipeline_body in Hb. simpl in Hv, Hb.
    repeat (destruct Hv as [Hv|Hv]; [inversion Hv; subst; repeat (destruct Hb as [Hb|Hb]; [discriminate Hb|]); contradiction|]).
    contradiction.
  - intros Q k Hv ->. apply pipeline_value in Hv. simpl in Hv.
    repeat (destruct Hv as [Hv|Hv]; [discriminate Hv|]). contradiction.
  - intros R Hb Hv. apply pipeline_body in Hb. simpl in Hb.
    repeat (destruct Hb as [Hb|Hb]; [subst; simpl in Hv; intuition discriminate|]). contradiction.
Qed.

Example C76_pipeline_any : forall ord, (forall p site ks, Permutation ks (ord p site ks)) ->
  exists h', decode_vbody same_text show plus (Some 0) (FHcl random) ord pipeline (given_tree region) 0 = Ok (h', pipeline_data).
Proof.
  intros ord Ho. apply C76_lexical; [repeat constructor; intros []| |exact C76_pipeline_names|exact C76_pipeline_gives|exact Ho].
  intros k [<-|[]]. simpl. intuition discriminate.
Qed.

(* Computed in two orders. *)
Definition decoded (r : result (heap CtyModel.cval * native)) : result native := do x <- r; Ok (snd x).
Definition decode_doc (fs : funcs) (ord : order) (given : list (string * CtyModel.cval)) (b : vbody) : result native :=
  decoded (decode_vbody same_text show plus (Some 0) fs ord b (given_tree given) 0).
Example C76_pipeline_forward : decode_doc (FHcl random) forward region pipeline = Ok pipeline_data.
Proof. vm_compute. reflexivity. Qed.
Example C76_pipeline_backward : decode_doc (FHcl random) backward region pipeline = Ok pipeline_data.
Proof. vm_compute. reflexivity. Qed.

(* Attributes of one body that refer to each other: the result depends on the order in which Go
   visits a map.  With a value of the same name given beforehand there are two results, ... *)
Definition siblings : vbody := VBody [("a", VNum 1); ("b", VRef "var" [SAttr "a"])] [].
Theorem C76_siblings_refuted :
  decode_doc FNone forward [("a", whole 5)] siblings = Ok (NMap [("a", NInt 1); ("b", NInt 1)]) /\
  decode_doc FNone backward [("a", whole 5)] siblings = Ok (NMap [("a", NInt 1); ("b", NInt 5)]).
Proof. vm_compute. auto. Qed.
Print Assumptions C76_siblings_refuted.
(* ... and without one, the document is decoded or refused. *)
Theorem C76_siblings_refused_refuted :
  decode_doc FNone forward [] siblings = Ok (NMap [("a", NInt 1); ("b", NInt 1)]) /\
  exists m, decode_doc FNone backward [] siblings = Err m.
Proof. vm_compute. eauto. Qed.
Print Assumptions C76_siblings_refused_refuted.
(* So are references between blocks of different types. *)
Definition cousins : vbody :=
  VBody [] [("x", [], VBody [("v", VNum 1)] []); ("y", [], VBody [("w", VRef "var" [SAttr "x"; SIndex 0; SAttr "v"])] [])].
Theorem C76_blocks_refuted :
  decode_doc FNone forward [] cousins = Ok (NMap [("x", NMap [("v", NInt 1)]); ("y", NMap [("w", NInt 1)])]) /\
  exists m, decode_doc FNone backward [] cousins = Err m.
Proof. vm_compute. eauto. Qed.
Print Assumptions C76_blocks_refuted.
(* A reference to a list gives a map of positions, ... *)
Theorem C76_list_refuted :
  decode_doc FNone forward [] (VBody [("l", VTuple [VNum 1; VNum 2])] [("u", [], VBody [("x", VRef "var" [SAttr "l"])] [])])
  = Ok (NMap [("l", NList [NInt 1; NInt 2]); ("u", NMap [("x", NMap [("0", NInt 1); ("1", NInt 2)])])]).
Proof. vm_compute. reflexivity. Qed.
Print Assumptions C76_list_refuted.
(* ... null() leaves nothing to refer to, ... *)
Theorem C76_null_refuted : exists m,
  decode_doc (FHcl []) forward [] (VBody [("a", VCall "null" [])] [("u", [], VBody [("b", VRef "var" [SAttr "a"])] [])]) = Err m.
Proof. vm_compute. eauto. Qed.
Print Assumptions C76_null_refuted.
(* ... and a value given beforehand hides the blocks of that name. *)
Theorem C76_hidden_refuted :
  exists m, decode_doc FNone forward [("t", whole 5)]
    (VBody [] [("t", ["l"], VBody [("v", VNum 1)] [("u", [], VBody [("x", VRef "t" [SAttr "l"; SAttr "v"])] [])])]) = Err m.
Proof. vm_compute. eauto. Qed.
Print Assumptions C76_hidden_refuted.
(* Without it the reference is fine. *)
Example C76_not_hidden :
  decode_doc FNone forward []
    (VBody [] [("t", ["l"], VBody [("v", VNum 1)] [("u", [], VBody [("x", VRef "t" [SAttr "l"; SAttr "v"])] [])])])
  = Ok (NMap [("t", NMap [("l", NMap [("v", NInt 1); ("u", NMap [("x", NInt 1)])])])]).
Proof. vm_compute. reflexivity. Qed.

(* A reference has a value exactly if every step of it goes to a field or element that is there;
   nothing is inside null, texts, numbers and booleans. *)
Theorem C76_reference : forall to_text binary vars fns root steps v,
  eval to_text binary (Some vars) fns (VRef root steps) = Ok v <-> exists x, lookup root vars = Some x /\ inside x steps v.
Proof.
  intros to_text binary vars fns root steps v. cbn [eval]. split.
  - destruct (lookup root vars) as [x|]; [|discriminate]. intro H. exists x. split; [reflexivity|]. revert x v H.
    induction steps as [|s steps IH]; intros x v H; cbn [do_steps] in H; [injection H as <-; constructor|].
    apply bindr_Ok in H. destruct H as (y & Hs & H). specialize (IH y v H).
    destruct s as [n|z|n]; cbn [do_step get_index get_attr] in Hs.
    + destruct x as [| | | | |m|l]; try discriminate. cbn [get_attr] in Hs. destruct (lookup n m) eqn:L; [|discriminate]. injection Hs as ->.
      exact (in_field m (SAttr n) n y steps v (sp_attr n) L IH).
    + destruct x as [| | | | |m|l]; try discriminate.
      2:{ cbn [get_index] in Hs. destruct (z <? 0)%Z eqn:Hz; [discriminate|]. apply Z.ltb_ge in Hz. destruct (nth_error l (Z.to_nat z)) eqn:L; [|discriminate]. injection Hs as ->.
        rewrite <- (Z2Nat.id z Hz). exact (in_element l (Z.to_nat z) y steps v L IH). }
      cbn [get_index get_attr] in Hs. destruct (lookup (dec_Z z) m) eqn:L; [|discriminate]. injection Hs as ->.
      exact (in_field m (SIndex z) (dec_Z z) y steps v (sp_index z) L IH).
    + destruct x as [| | | | |m|l]; try discriminate. cbn [get_attr] in Hs. destruct (lookup n m) eqn:L; [|discriminate]. injection Hs as ->.
      exact (in_field m (SKey n) n y steps v (sp_key n) L IH).
  - intros (x & -> & H). apply inside_steps. exact H.
Qed.
Print Assumptions C76_reference.
Example C76_reference_sample : forall fns,
  let vars := Some [("a", CObj [("l", CTup [whole 1; CNull])])] in
  let ev := eval show plus vars fns in
  ev (VRef "a" [SAttr "l"; SIndex 0]) = Ok (whole 1) /\ ev (VRef "a" [SKey "l"; SIndex 1]) = Ok CNull /\
  (exists m, ev (VRef "a" [SAttr "l"; SIndex 1; SAttr "x"]) = Err m) /\ (exists m, ev (VRef "a" [SAttr "l"; SIndex 2]) = Err m) /\
  (exists m, ev (VRef "a" [SAttr "l"; SIndex (-1)]) = Err m) /\ exists m, ev (VRef "b" []) = Err m.
Proof. intros fns vars ev. repeat split; try reflexivity; eexists; reflexivity. Qed.

(* ----- C77: decoding a document into structs ----- *)

(* Whatever the order of the loop over the attributes of each body, and whichever blocks the
   types pick in whatever order, the values are those the document says. *)
Theorem C77_lexical : forall norm to_text binary fs again given b s sord pick,
  NoDup (map fst given) ->
  (forall k, In k (map fst given) -> ~ In k (map fst (vb_attrs b)) /\
     (forall n e, In n (again []) -> In (n, e) (vb_attrs b) -> ~ again_item [] e [] k)) ->
  well_named (struct_value_at again given b) (struct_body_at b) ->
  values norm to_text binary fs again (given_env given) [] [] b s ->
  (forall at_ ks, Permutation ks (sord at_ ks)) ->
  exists h' s', struct_decode norm to_text binary (Some 0) fs sord again pick b [] (given_tree given) 0 = Ok (h', s') /\
    picked pick [] s s'.
Proof.
  intros norm to_text binary fs again given b s sord pick Hn Hd Hw Hv Hs.
  apply document_values; auto. intros k n e Hk Hi. destruct (Hd k Hk) as [H1 H2]. split.
  - intros ->. apply H1. change n with (fst (n, e)). apply in_map. assumption.
  - intros Ha. eapply H2; eauto.
Qed.
Print Assumptions C77_lexical.

(* The pipeline again; in structs, blocks without labels are not numbered. *)
Definition pipeline_values : sres :=
  SRes [("folder", CStr "__test__"); ("version", whole 2); ("id", CStr "xyzzy")]
    [(0, SRes [("dir", CStr "__test__"); ("py", whole 8)]
           [(0, SRes [("message", CStr "xyzzy in west/__test__")] [])])].
Definition none_again : list nat -> list string := fun _ => [].
Definition all_blocks : list nat -> list nat := fun at_ => match at_ with [] | [_] => [0] | _ => [] end.
Example C77_pipeline_values :
  values same_text show plus (FHcl random) none_again (given_env region) [] [] pipeline pipeline_values.
Proof.
  unfold pipeline, pipeline_values. eapply va.
  - simpl. repeat (constructor; [simpl; intuition discriminate|]). constructor.
  - apply sa_cons; [apply me_str|]. apply sa_cons; [apply me_num|]. apply sa_cons; [|apply sa_nil].
    eapply me_call; [reflexivity|discriminate|discriminate|reflexivity|repeat constructor|reflexivity].
  - intros k e [].
  - apply av_cons; [discriminate| |apply av_nil]. eapply va.
    + simpl. repeat (constructor; [simpl; intuition discriminate|]). constructor.
    + apply sa_cons.
      { eapply me_ref with (names := ["folder"]) (rest := []); [left; reflexivity| |constructor].
        apply (ref_var [SAttr "folder"] ["folder"] []). repeat constructor. }
      apply sa_cons; [|apply sa_nil].
      apply me_bin with (x := whole 2) (y := whole 6); [|apply me_num|reflexivity].
      eapply me_ref with (names := ["version"]) (rest := []); [right; left; reflexivity| |constructor].
      apply bare_ref. discriminate.
    + intros k e [].
    + apply av_cons; [discriminate| |apply av_nil]. eapply va.
      * simpl. repeat (constructor; [simpl; intuition discriminate|]). constructor.
      * apply sa_cons; [|apply sa_nil].
        eapply me_tpl with (vs := [CStr "xyzzy"; CStr " in "; CStr "west"; CStr "/"; CStr "__test__"])
          (ts := ["xyzzy"; " in "; "west"; "/"; "__test__"]); [|repeat constructor].
        apply am_cons.
        { eapply me_ref with (names := ["id"]) (rest := []); [simpl; tauto| |constructor]. apply bare_ref. discriminate. }
        apply am_cons; [constructor|]. apply am_cons.
        { eapply me_ref with (names := ["region"]) (rest := []); [simpl; tauto| |constructor]. apply bare_ref. discriminate. }
        apply am_cons; [constructor|]. apply am_cons; [|constructor].
        eapply me_ref with (names := ["job"; "e2e"; "dir"]) (rest := []); [simpl; tauto| |constructor].
        apply (ref_bare "job" [SAttr "e2e"; SAttr "dir"] ["e2e"; "dir"] []); [discriminate|repeat constructor].
      * intros k e [].
      * apply av_nil.
Qed.

Lemma struct_inner_bodies : forall R c, struct_inner ([], []) pipeline R c ->
  In (R, c) [(([], []), pipeline); (([0], ["job"; "e2e"]), job_body); (([0; 0], ["job"; "e2e"; "slack"]), slack_body)].
Proof.
  intros R c H. inversion H; subst; [left; reflexivity|]. inversion H0; subst.
  destruct i as [|[|i]]; try discriminate. match goal with E : nth_error _ _ = Some _ |- _ => inversion E; subst end.
  clear H H0. inversion H1; subst; [right; left; reflexivity|]. inversion H; subst.
  destruct i as [|[|i]]; try discriminate. match goal with E : nth_error _ _ = Some _ |- _ => inversion E; subst end.
  clear H H1. inversion H0; subst; [right; right; left; reflexivity|]. inversion H; subst. destruct i; discriminate.
Qed.
Example C77_pipeline_names : well_named (struct_value_at none_again region pipeline) (struct_body_at pipeline).
Proof.
  assert (Hv : forall Q k, struct_value_at none_again region pipeline Q k ->
    In (Q, k) [([], "region"); ([], "folder"); ([], "version"); ([], "id"); (["job"; "e2e"], "dir"); (["job"; "e2e"], "py");
               (["job"; "e2e"; "slack"], "message")]).
  { intros Q k [[-> [<-|[]]]|(at_ & R & c & n & e & Hi & Ha & [[-> ->]|[[] _]])]; [simpl; tauto|].
    apply struct_inner_bodies in Hi. simpl in Hi. destruct Hi as [E|[E|[E|[]]]]; inversion E; subst; simpl in Ha;
      repeat (destruct Ha as [Ha|Ha]; [inversion Ha; subst; simpl; tauto|]); contradiction. }
  assert (Hb : forall R, struct_body_at pipeline R -> In R [[]; ["job"; "e2e"]; ["job"; "e2e"; "slack"]]).
  { intros R (at_ & c & H). apply struct_inner_bodies in H. simpl in *. intuition congruence. }
  split; [|split].
  - intros Q k R rest H1 H2 E. apply Hv in H1. apply Hb in H2. simpl in H1, H2.
    repeat (destruct H1 as [H1|H1]; [inversion H1; subst; repeat (destruct H2 as [H2|H2]; [discriminate H2|]); contradiction|]).
    contradiction.
  - intros Q k H1 ->. apply Hv in H1. simpl in H1.
    repeat (destruct H1 as [H1|H1]; [discriminate H1|]). contradiction.
  - intros R H2 H3. apply Hb in H2. simpl in H2.
    repeat (destruct H2 as [H2|H2]; [subst; simpl in H3; intuition discriminate|]). contradiction.
Qed.
Example C77_pipeline_any : forall sord pick, (forall at_ ks, Permutation ks (sord at_ ks)) ->
  exists h' s', struct_decode same_text show plus (Some 0) (FHcl random) sord none_again pick pipeline [] (given_tree region) 0
    = Ok (h', s') /\ picked pick [] pipeline_values s'.
Proof.
  intros sord pick Hs. apply C77_lexical;
    [repeat constructor; intros []| |exact C77_pipeline_names|exact C77_pipeline_values|exact Hs].
  intros k [<-|[]]. split; [simpl; intuition discriminate|intros n e []].
Qed.

Definition values_doc (fs : funcs) (sord : list nat -> list string -> list string) (again : list nat -> list string)
  (pick : list nat -> list nat) (given : list (string * CtyModel.cval)) (b : vbody) : result sres :=
  do x <- struct_decode same_text show plus (Some 0) fs sord again pick b [] (given_tree given) 0; Ok (snd x).
Definition in_order (at_ : list nat) (ks : list string) : list string := ks.
Definition reversed (at_ : list nat) (ks : list string) : list string := rev ks.
Example C77_pipeline_forward :
  values_doc (FHcl random) in_order none_again all_blocks region pipeline = Ok pipeline_values.
Proof. vm_compute. reflexivity. Qed.
Example C77_pipeline_backward :
  values_doc (FHcl random) reversed none_again all_blocks region pipeline = Ok pipeline_values.
Proof. vm_compute. reflexivity. Qed.

(* An attribute conf = { name = "x" } of a field of type map[string]interface{} changes what
   var.name stands for in the blocks of the body. *)
Definition overwritten : vbody :=
  VBody [("name", VStr "y"); ("conf", VObj [(VStr "name", VStr "x")])] [("u", [], VBody [("r", VRef "var" [SAttr "name"])] [])].
Definition again_conf : list nat -> list string := fun at_ => match at_ with [] => ["conf"] | _ => [] end.
Definition first_block : list nat -> list nat := fun at_ => match at_ with [] => [0] | _ => [] end.
Theorem C77_overwritten_refuted :
  values_doc FNone in_order again_conf first_block [] overwritten
  = Ok (SRes [("name", CStr "y"); ("conf", CObj [("name", CStr "x")])] [(0, SRes [("r", CStr "x")] [])]) /\
  values_doc FNone in_order none_again first_block [] overwritten
  = Ok (SRes [("name", CStr "y"); ("conf", CObj [("name", CStr "x")])] [(0, SRes [("r", CStr "y")] [])]).
Proof. vm_compute. auto. Qed.
Print Assumptions C77_overwritten_refuted.

(* A reference to an attribute of another block is refused or not, by the order of the fields
   of the struct. *)
Definition struct_cousins : vbody :=
  VBody [] [("x", ["l"], VBody [("v", VNum 1)] []); ("y", ["l"], VBody [("w", VRef "var" [SAttr "x"; SAttr "l"; SAttr "v"])] [])].
Definition picks (l : list nat) : list nat -> list nat := fun at_ => match at_ with [] => l | _ => [] end.
Theorem C77_blocks_refuted :
  values_doc FNone in_order none_again (picks [0; 1]) [] struct_cousins
  = Ok (SRes [] [(0, SRes [("v", whole 1)] []); (1, SRes [("w", whole 1)] [])]) /\
  exists m, values_doc FNone in_order none_again (picks [1; 0]) [] struct_cousins = Err m.
Proof. vm_compute. eauto. Qed.
Print Assumptions C77_blocks_refuted.

(* Attributes of one body that refer to each other. *)
Theorem C77_siblings_refuted :
  values_doc FNone in_order none_again (picks []) [("a", whole 5)] siblings = Ok (SRes [("a", whole 1); ("b", whole 1)] []) /\
  values_doc FNone reversed none_again (picks []) [("a", whole 5)] siblings = Ok (SRes [("a", whole 1); ("b", whole 5)] []).
Proof. vm_compute. auto. Qed.
Print Assumptions C77_siblings_refuted.

(* Blocks of one type without labels share their names: the second x has no a of its own, and a
   block inside it sees the a of the first. *)
Theorem C77_shared_refuted :
  values_doc FNone in_order none_again (fun at_ => match at_ with [] => [0; 1] | [1] => [0] | _ => [] end) []
    (VBody [] [("x", [], VBody [("a", VNum 1)] []);
               ("x", [], VBody [] [("y", [], VBody [("r", VRef "var" [SAttr "x"; SAttr "a"])] [])])])
  = Ok (SRes [] [(0, SRes [("a", whole 1)] []); (1, SRes [] [(0, SRes [("r", whole 1)] [])])]).
Proof. vm_compute. reflexivity. Qed.
Print Assumptions C77_shared_refuted.

(* A field of type map[string]interface{} takes no reference, although it has a value: the whole
   document is refused. *)
Definition referring : vbody :=
  VBody [("base", VObj [(VStr "name", VStr "x")])] [("u", [], VBody [("conf", VRef "var" [SAttr "base"])] [])].
Definition again_inner : list nat -> list string := fun at_ => match at_ with [0] => ["conf"] | _ => [] end.
Theorem C77_field_refuted :
  values_doc FNone in_order none_again first_block [] referring
  = Ok (SRes [("base", CObj [("name", CStr "x")])] [(0, SRes [("conf", CObj [("name", CStr "x")])] [])]) /\
  exists m, values_doc FNone in_order again_inner first_block [] referring = Err m.
Proof. vm_compute. eauto. Qed.
Print Assumptions C77_field_refuted.

(* ----- C78: calls ----- *)

(* An expression over the given values has the value it stands for, calls included. *)
Theorem C78_value : forall norm to_text binary fs given e v,
  NoDup (map fst given) -> ~ In "var" (map fst given) ->
  means norm to_text binary fs (given_env given) Whole e v ->
  eval_at norm to_text binary (given_tree given) (Some 0) fs e = Ok v.
Proof.
  intros norm to_text binary fs given e v Hn Hv Hm.
  apply (eval_at_means norm to_text binary (fun Q k => True) (fun _ _ => True) (given_tree given) 0 (given_env given) fs e v).
  - apply given_good; auto.
  - apply given_sees; [exact Hn|]. intros k Hk. split; [exact Logic.I|]. intros ->. contradiction.
  - exact Hm.
Qed.
Print Assumptions C78_value.

(* The error a Go function returns comes back; a wrong number of arguments and a name that is
   not in the map are errors, whatever the function would do. *)
Lemma given_args : forall norm to_text binary fs given l vs,
  NoDup (map fst given) -> ~ In "var" (map fst given) ->
  all_mean norm to_text binary fs (given_env given) Whole l vs -> forall vars, ctx_vars (given_tree given) (Some 0) = Ok vars ->
  Forall2 (fun e v => expr_to_cty norm to_text binary vars fs e = Ok v) l vs.
Proof.
  intros norm to_text binary fs given l vs Hn Hv Hm vars Ec. remember Whole as pl eqn:Epl. revert Epl.
  induction Hm as [|pl e l v vs H Hl IH]; intros ->; constructor; [|apply IH; reflexivity].
  apply (C78_value norm to_text binary fs given e v Hn Hv) in H. unfold eval_at in H. rewrite Ec in H. exact H.
Qed.

Lemma two_lengths : forall A B (R : A -> B -> Prop) l l', Forall2 R l l' -> List.length l = List.length l'.
Proof. intros A B R l l' H. induction H; simpl; auto. Qed.

Lemma go_call : forall norm to_text binary given funs f args g vs xs,
  NoDup (map fst given) -> ~ In "var" (map fst given) -> f <> "null" -> f <> "" -> lookup f funs = Some g ->
  all_mean norm to_text binary (FGo funs) (given_env given) Whole args vs ->
  Forall2 (fun v x => cty_to_native v = Ok x) vs xs ->
  eval_at norm to_text binary (given_tree given) (Some 0) (FGo funs) (VCall f args) = call_go norm g xs.
Proof.
  intros norm to_text binary given funs f args g vs xs Hn Hv Hf Hf' Hg Hm Hx. unfold eval_at.
  destruct (ctx_vars (given_tree given) (Some 0)) as [vars|m|m] eqn:Ec.
  2,3: unfold ctx_vars in Ec; simpl in Ec; discriminate Ec.
  pose proof (given_args _ _ _ _ _ _ _ Hn Hv Hm vars Ec) as Ha. cbn [bindr expr_to_cty].
  apply String.eqb_neq in Hf. apply String.eqb_neq in Hf'. rewrite Hf, Hf', Hg. clear Hm.
  match goal with |- bindr ?u _ = _ => assert (E : u = Ok xs); [|rewrite E; reflexivity] end.
  revert xs Hx. induction Ha as [|e v l vs He Hl IH]; intros xs Hx; inversion Hx; subst; [reflexivity|].
  rewrite He. cbn [bindr]. rewrite H1. cbn [bindr]. rewrite (IH _ H3). reflexivity.
Qed.

Theorem C78_error : forall norm to_text binary given funs f args n run vs xs outs m,
  NoDup (map fst given) -> ~ In "var" (map fst given) -> f <> "null" -> f <> "" -> lookup f funs = Some (GoFunc n run) ->
  all_mean norm to_text binary (FGo funs) (given_env given) Whole args vs ->
  Forall2 (fun v x => cty_to_native v = Ok x /\ x <> NNil) vs xs -> List.length args = n ->
  run xs = Ok outs -> outcome norm outs (Err m) ->
  eval_at norm to_text binary (given_tree given) (Some 0) (FGo funs) (VCall f args) = Err m.
Proof.
  intros norm to_text binary given funs f args n run vs xs outs m Hn Hv Hf Hf' Hg Hm Hx Hl Hr Ho.
  assert (Hx1 : Forall2 (fun v x => cty_to_native v = Ok x) vs xs).
  { clear - Hx. induction Hx as [|v x vs xs [H1 H2] H IH]; constructor; assumption. }
  rewrite (go_call norm to_text binary given funs f args _ vs xs Hn Hv Hf Hf' Hg Hm Hx1). unfold call_go.
  assert (Hlen : List.length xs = List.length args).
  { rewrite <- (two_lengths _ _ _ _ _ Hx1). clear - Hm. remember Whole as pl. induction Hm; simpl; auto. }
  rewrite Hlen, Hl, Nat.eqb_refl. cbn [negb].
  assert (Hnil : existsb is_nil xs = false).
  { clear - Hx. induction Hx as [|v x vs xs [H1 H2] H IH]; [reflexivity|]. simpl. rewrite IH.
    destruct x; try reflexivity. contradiction. }
  rewrite Hnil, Hr. cbn [bindr]. apply outcome_ok. exact Ho.
Qed.
Print Assumptions C78_error.

Theorem C78_arity : forall norm to_text binary given funs f args n run vs xs,
  NoDup (map fst given) -> ~ In "var" (map fst given) -> f <> "null" -> f <> "" -> lookup f funs = Some (GoFunc n run) ->
  all_mean norm to_text binary (FGo funs) (given_env given) Whole args vs ->
  Forall2 (fun v x => cty_to_native v = Ok x) vs xs -> List.length args <> n ->
  exists m, eval_at norm to_text binary (given_tree given) (Some 0) (FGo funs) (VCall f args) = Err m.
Proof.
  intros norm to_text binary given funs f args n run vs xs Hn Hv Hf Hf' Hg Hm Hx Hl.
  rewrite (go_call norm to_text binary given funs f args _ vs xs Hn Hv Hf Hf' Hg Hm Hx). unfold call_go.
  assert (Hlen : List.length xs = List.length args).
  { rewrite <- (two_lengths _ _ _ _ _ Hx). clear - Hm. remember Whole as pl. induction Hm; simpl; auto. }
  assert (E : Nat.eqb n (List.length xs) = false) by (apply Nat.eqb_neq; lia). rewrite E. cbn [negb]. eauto.
Qed.
Print Assumptions C78_arity.

Theorem C78_missing : forall norm to_text binary vars fs f args,
  f <> "null" ->
  match fs with FHcl funs => lookup f funs = None | FGo funs => lookup f funs = None | _ => True end ->
  exists m, expr_to_cty norm to_text binary vars fs (VCall f args) = Err m.
Proof.
  intros norm to_text binary vars fs f args Hf H. apply String.eqb_neq in Hf. cbn [expr_to_cty].
  destruct fs; cbn [eval]; rewrite ?Hf, ?H; eauto. destruct (String.eqb f ""); eauto.
Qed.
Print Assumptions C78_missing.

(* Nothing panics, with the functions of libraries that do not, when the keys of objects are
   texts and Go functions are not called. *)
Definition quiet {A} (r : result A) : Prop := forall m, r <> Panic m.
Inductive text_keys : vexpr -> Prop :=
| tk_tuple : forall l, Forall text_keys l -> text_keys (VTuple l)
| tk_obj : forall m, Forall (fun kv => (exists s, fst kv = VStr s) /\ text_keys (snd kv)) m -> text_keys (VObj m)
| tk_other : forall e, container e = false -> text_keys e.

Lemma quiet_bind : forall A B (r : result A) (k : A -> result B), quiet r -> (forall x, r = Ok x -> quiet (k x)) ->
  quiet (do x <- r; k x).
Proof. intros A B [x|m|m] k Hr Hk; [apply Hk; reflexivity|discriminate|]. intros m'. elim (Hr m). reflexivity. Qed.

Section Quiet.
Variable norm : string -> string.
Variable to_text : CtyModel.cval -> result string.
Variable binary : string -> CtyModel.cval -> CtyModel.cval -> result CtyModel.cval.
Hypothesis to_text_quiet : forall v, quiet (to_text v).
Hypothesis binary_quiet : forall o x y, quiet (binary o x y).

Lemma steps_quiet : forall l v, quiet (do_steps v l).
Proof.
  induction l as [|s l IH]; intros v; [discriminate|]. cbn [do_steps]. apply quiet_bind; [|intros; apply IH].
  assert (Hg : forall v n, quiet (get_attr v n)).
  { intros [] n; try discriminate. simpl. destruct (lookup n m); discriminate. }
  destruct s; simpl; [apply Hg| |destruct v; try apply Hg; discriminate].
  destruct v; try discriminate; simpl.
  - destruct (lookup (dec_Z z) m); discriminate.
  - destruct (z <? 0)%Z; [discriminate|]. destruct (nth_error l0 (Z.to_nat z)); discriminate.
Qed.

Lemma eval_quiet : forall vars (fns : option (list (string * hfunc))),
  (forall (m : list (string * hfunc)) f (g : hfunc), fns = Some m -> lookup f m = Some g -> forall vs, quiet (g vs)) ->
  forall e, quiet (eval to_text binary vars fns e).
Proof.
  intros vars fns Hf.
  assert (Hc : forall f (U : result (list CtyModel.cval)), quiet U ->
    quiet match fns with
          | None => Err "function calls not allowed"
          | Some m => match lookup f m with None => Err "call to unknown function" | Some g => do u <- U; g u end
          end).
  { intros f U HU. destruct fns as [m|]; [|discriminate]. destruct (lookup f m) eqn:Eg; [|discriminate].
    apply quiet_bind; [exact HU|]. intros. eapply Hf; eauto. }
  assert (Hv : forall root steps,
    quiet match vars with
          | None => Err "variables not allowed"
          | Some m => match lookup root m with None => Err "unknown variable" | Some v => do_steps v steps end
          end).
  { intros root steps. destruct vars; [|discriminate]. destruct (lookup root l); [|discriminate]. apply steps_quiet. }
  fix IH 1. intros e. destruct e; cbn [eval]; try discriminate.
  - apply Hv.
  - apply quiet_bind; [|discriminate]. induction parts as [|e l IHl]; [discriminate|].
    apply quiet_bind; [apply IH|]. intros x _. apply quiet_bind; [apply to_text_quiet|]. intros t _.
    apply quiet_bind; [exact IHl|]. discriminate.
  - apply quiet_bind; [apply IH|]. intros x _. apply quiet_bind; [apply IH|]. intros y _. apply binary_quiet.
  - apply quiet_bind; [|discriminate]. induction l as [|e l IHl]; [discriminate|].
    apply quiet_bind; [apply IH|]. intros x _. apply quiet_bind; [exact IHl|]. discriminate.
  - apply quiet_bind; [|discriminate]. induction m as [|[k e] m IHl]; [discriminate|].
    apply quiet_bind; [apply IH|]. intros kv _. apply quiet_bind; [apply to_text_quiet|]. intros kt _.
    apply quiet_bind; [apply IH|]. intros x _. apply quiet_bind; [exact IHl|]. discriminate.
  - apply Hc. induction args as [|e l IHl]; [discriminate|].
    apply quiet_bind; [apply IH|]. intros x _. apply quiet_bind; [exact IHl|]. discriminate.
Qed.
End Quiet.

Theorem C78_no_panic : forall norm to_text binary vars fs e,
  (forall v, quiet (to_text v)) -> (forall o x y, quiet (binary o x y)) ->
  match fs with FHcl funs => forall f g, lookup f funs = Some g -> forall vs, quiet (g vs) | FGo _ => False | _ => True end ->
  text_keys e -> quiet (expr_to_cty norm to_text binary vars fs e).
Proof.
  intros norm to_text binary vars fs e Ht Hb Hfs. revert e.
  assert (Hnone : forall e, quiet (eval to_text binary vars None e)).
  { apply eval_quiet; auto. discriminate. }
  assert (Hother : forall e, container e = false -> quiet (expr_to_cty norm to_text binary vars fs e)).
  { intros e He. destruct e; try discriminate He; try apply Hnone. cbn [expr_to_cty].
    destruct fs as [|funs|funs|]; [apply Hnone| |contradiction|destruct (String.eqb f "null"); discriminate].
    destruct (String.eqb f "null"); [discriminate|]. apply eval_quiet; auto.
    intros m' f' g E Hl. injection E as <-. eapply Hfs; eauto. }
  fix IH 2. intros e Hk. destruct Hk as [l Hl|m Hm|e He].
  - cbn [expr_to_cty]. apply quiet_bind; [|discriminate].
    revert l Hl. fix IHl 2. intros l Hl. destruct Hl as [|e l H Hl]; [discriminate|].
    apply quiet_bind; [apply IH; exact H|]. intros x _. apply quiet_bind; [apply IHl; exact Hl|]. discriminate.
  - cbn [expr_to_cty]. apply quiet_bind; [|discriminate].
    revert m Hm. fix IHl 2. intros m Hm. destruct Hm as [|[k e] m [[s H1] H2] Hm]; [discriminate|].
    simpl in H1. subst k. cbn [eval bindr]. apply quiet_bind; [apply IH; exact H2|]. intros x _. cbn [as_string bindr].
    apply quiet_bind; [apply IHl; exact Hm|]. discriminate.
  - apply Hother. exact He.
Qed.
Print Assumptions C78_no_panic.

(* Go functions: one that returns (string, error), and one that only returns an error. *)
Definition goenv : list (string * gofunc) :=
  [("env", GoFunc 1 (fun l => match l with
      | [NStr "HOME"] => Ok [GValue (NStr "/root"); GError None]
      | _ => Ok [GValue (NStr ""); GError (Some "not set")]
      end));
   ("check", GoFunc 2 (fun l => Ok [GError None]));
   ("version", GoOther)].
Definition eval_doc (fs : funcs) (given : list (string * CtyModel.cval)) (e : vexpr) : result CtyModel.cval :=
  eval_at same_text show plus (given_tree given) (Some 0) fs e.
Example C78_go_means :
  means same_text show plus (FGo goenv) (given_env [("name", CStr "HOME")]) Whole
    (VTuple [VCall "env" [VRef "name" []]; VCall "check" [VNum 1; VNum 2]]) (CTup [CStr "/root"; CObj []]).
Proof.
  apply me_tuple. apply am_cons; [|apply am_cons; [|apply am_nil]].
  - eapply me_go with (vs := [CStr "HOME"]) (xs := [NStr "HOME"]) (outs := [GValue (NStr "/root"); GError None]);
      [reflexivity|discriminate|discriminate|reflexivity| | |reflexivity|reflexivity|].
    + apply am_cons; [|apply am_nil]. eapply me_ref with (names := ["name"]) (rest := []); [left; reflexivity| |constructor].
      apply bare_ref. discriminate.
    + repeat constructor. discriminate.
    + change (CStr "/root") with (native_to_cty same_text (NStr "/root")).
      apply (oc_value same_text [] (NStr "/root") [GError None]); [left; reflexivity|].
      intros e [E|[]]. inversion E. auto.
  - eapply me_go with (vs := [whole 1; whole 2]) (xs := [NInt 1; NInt 2]) (outs := [GError None]);
      [reflexivity|discriminate|discriminate|reflexivity| | |reflexivity|reflexivity|].
    + repeat constructor.
    + repeat constructor; discriminate.
    + apply oc_nothing. right. reflexivity.
Qed.
Example C78_go_value :
  eval_doc (FGo goenv) [("name", CStr "HOME")] (VTuple [VCall "env" [VRef "name" []]; VCall "check" [VNum 1; VNum 2]])
  = Ok (CTup [CStr "/root"; CObj []]).
Proof. apply C78_value; [repeat constructor; intros []|simpl; intuition discriminate|exact C78_go_means]. Qed.
Example C78_go_error : eval_doc (FGo goenv) [] (VCall "env" [VStr "PATH"]) = Err "not set".
Proof.
  apply C78_error with (n := 1) (run := fun l => match l with
      | [NStr "HOME"] => Ok [GValue (NStr "/root"); GError None]
      | _ => Ok [GValue (NStr ""); GError (Some "not set")]
      end) (vs := [CStr "PATH"]) (xs := [NStr "PATH"]) (outs := [GValue (NStr ""); GError (Some "not set")]);
    try reflexivity; try discriminate; repeat constructor; try discriminate; simpl; auto.
  apply (oc_error same_text [GValue (NStr "")] "not set" []). repeat constructor.
Qed.
Example C78_go_arity : exists m, eval_doc (FGo goenv) [] (VCall "check" [VNum 1]) = Err m.
Proof.
  apply C78_arity with (n := 2) (run := fun l => Ok [GError None]) (vs := [whole 1]) (xs := [NInt 1]);
    try reflexivity; try discriminate; repeat constructor; simpl; auto.
Qed.

(* Go functions: null arguments and entries that are not functions. *)
Theorem C78_null_argument_refuted : exists m, eval_doc (FGo goenv) [] (VCall "env" [VNull]) = Panic m.
Proof. vm_compute. eauto. Qed.
Print Assumptions C78_null_argument_refuted.
Theorem C78_not_a_function_refuted : exists m, eval_doc (FGo goenv) [] (VCall "version" []) = Panic m.
Proof. vm_compute. eauto. Qed.
Print Assumptions C78_not_a_function_refuted.
(* Keys of objects that are not texts: { 1 = "a" }. *)
Theorem C78_number_key_refuted : exists m, eval_doc FNone [] (VObj [(VNum 1, VStr "a")]) = Panic m.
Proof. vm_compute. eauto. Qed.
Print Assumptions C78_number_key_refuted.
(* A call inside a template is refused, although the function is there. *)
Theorem C78_inside_refuted :
  eval_doc (FHcl random) [] (VCall "random" [VNum 6]) = Ok (CStr "xyzzy") /\
  exists m, eval_doc (FHcl random) [] (VTpl [VStr "id-"; VCall "random" [VNum 6]]) = Err m.
Proof. vm_compute. eauto. Qed.
Print Assumptions C78_inside_refuted.
(* So is a call inside the arguments of a Go function, if it is an operand there. *)
Theorem C78_operand_refuted :
  eval_doc (FGo goenv) [] (VCall "env" [VCall "env" [VStr "HOME"]]) = Err "not set" /\
  exists m, eval_doc (FGo goenv) [] (VCall "env" [VTpl [VCall "env" [VStr "HOME"]; VStr "/x"]]) = Err m /\ m <> "not set".
Proof. vm_compute. split; [reflexivity|]. eexists. split; [reflexivity|discriminate]. Qed.
Print Assumptions C78_operand_refuted.

(* ----- C79: documents without references ----- *)

(* What a document without references and calls decodes to depends neither on the values given
   beforehand nor on the functions, nor on the order of the loops. *)
Theorem C79_plain : forall norm to_text binary fs ord given s its x,
  NoDup (map fst given) -> (forall p site ks, Permutation ks (ord p site ks)) ->
  parse_config s = Ok its -> decode_body its = Ok x ->
  exists h', decode_vbody norm to_text binary (Some 0) fs ord (vbody_of its) (given_tree given) 0 = Ok (h', x).
Proof. intros. apply document_plain; auto. eapply parse_distinct; eauto. Qed.
Print Assumptions C79_plain.

Example C79_sample : exists its,
  parse_config ("a = 1" +++ nl +++ "t x {" +++ nl +++ "  b = [2, true]" +++ nl +++ "}" +++ nl) = Ok its /\
  decode_body its = Ok (NMap [("a", NInt 1); ("t", NMap [("x", NMap [("b", NList [NInt 2; NBool true])])])]) /\
  decode_doc (FGo goenv) backward region (vbody_of its)
  = Ok (NMap [("a", NInt 1); ("t", NMap [("x", NMap [("b", NList [NInt 2; NBool true])])])]).
Proof. eexists. split; [vm_compute; reflexivity|]. split; vm_compute; reflexivity. Qed.

(* ----- C80: several documents with one reference map ----- *)

(* Calls with the same map, one after the other, each give what the document says. *)
Theorem C80_calls : forall norm to_text binary fs given calls xs,
  NoDup (map fst given) -> well_named (call_value_at given calls) (call_body_at calls) ->
  Forall2 (answers norm to_text binary fs given) calls xs ->
  exists h', run_calls norm to_text binary (Some 0) fs calls (given_tree given) 0 = Ok (h', xs).
Proof. exact calls_answer. Qed.
Print Assumptions C80_calls.

(* So each gives what it gives alone. *)
Theorem C80_alone : forall norm to_text binary fs given calls xs,
  NoDup (map fst given) -> well_named (call_value_at given calls) (call_body_at calls) ->
  Forall2 (answers norm to_text binary fs given) calls xs ->
  (exists h', run_calls norm to_text binary (Some 0) fs calls (given_tree given) 0 = Ok (h', xs)) /\
  Forall2 (fun c x => exists h', run_call norm to_text binary (Some 0) fs c (given_tree given) 0 = Ok (h', x)) calls xs.
Proof.
  intros norm to_text binary fs given calls xs Hn Hw Hall. split; [apply calls_answer; assumption|].
  assert (Hone : forall c x, In c calls -> answers norm to_text binary fs given c x ->
    exists h', run_call norm to_text binary (Some 0) fs c (given_tree given) 0 = Ok (h', x)).
  { intros c x Hc Ha. destruct Hw as [Hw1 [Hw2 Hw3]].
    assert (Hv : forall Q k, call_value_at given [c] Q k -> call_value_at given calls Q k).
    { intros Q k [H|[c' [[<-|[]] H]]]; [left; exact H|right; exists c; auto]. }
    assert (Hb : forall R, call_body_at [c] R -> call_body_at calls R).
    { intros R [c' [[<-|[]] H]]. exists c. auto. }
    destruct (calls_answer norm to_text binary fs given [c] [x] Hn) as [h' E].
    - split; [|split].
      + intros Q k R rest H1 H2. apply Hw1; auto.
      + intros Q k H. apply (Hw2 Q k). auto.
      + intros R H. apply Hw3. auto.
    - repeat constructor. exact Ha.
    - cbn [run_calls] in E. destruct (run_call norm to_text binary (Some 0) fs c (given_tree given) 0) as [[h1 y]|m|m];
        try discriminate E. cbn [bindr fst snd] in E. inversion E; subst. exists h'. reflexivity. }
  clear Hw. induction Hall as [|c x l xs Hc Hl IH]; constructor.
  - apply Hone; [left; reflexivity|exact Hc].
  - apply IH. intros c' x' Hin. apply Hone. right. exact Hin.
Qed.
Print Assumptions C80_alone.

Definition twice : list call := [CallMap backward pipeline; CallStruct reversed none_again all_blocks pipeline; CallMap forward pipeline].
Example C80_twice : exists h',
  run_calls same_text show plus (Some 0) (FHcl random) twice (given_tree region) 0
  = Ok (h', [AMap pipeline_data; AStruct pipeline_values; AMap pipeline_data]).
Proof.
  apply C80_calls.
  - repeat constructor. intros [].
  - destruct C76_pipeline_names as [A1 [A2 A3]]. destruct C77_pipeline_names as [B1 [B2 B3]].
    assert (Hv : forall Q k, call_value_at region twice Q k ->
      value_at region pipeline Q k \/ struct_value_at none_again region pipeline Q k).
    { intros Q k [H|[c [[<-|[<-|[<-|[]]]] H]]]; auto. left. left. exact H. }
    assert (Hb : forall R, call_body_at twice R -> body_at pipeline R \/ struct_body_at pipeline R).
    { intros R [c [[<-|[<-|[<-|[]]]] H]]; auto. }
    assert (Hsv : forall Q k, struct_value_at none_again region pipeline Q k ->
      In (Q, k) [([], "region"); ([], "folder"); ([], "version"); ([], "id"); (["job"; "e2e"], "dir"); (["job"; "e2e"], "py");
                 (["job"; "e2e"; "slack"], "message")]).
    { intros Q k [[-> [<-|[]]]|(at_ & R & c & n & e & Hi & Ha & [[-> ->]|[[] _]])]; [simpl; tauto|].
      apply struct_inner_bodies in Hi. simpl in Hi. destruct Hi as [E|[E|[E|[]]]]; inversion E; subst; simpl in Ha;
        repeat (destruct Ha as [Ha|Ha]; [inversion Ha; subst; simpl; tauto|]); contradiction. }
    assert (Hsb : forall R, struct_body_at pipeline R -> In R [[]; ["job"; "e2e"]; ["job"; "e2e"; "slack"]]).
    { intros R (at_ & c & H). apply struct_inner_bodies in H. simpl in *. intuition congruence. }
    split; [|split].
    + intros Q k R rest H1 H2 E. apply Hv in H1. apply Hb in H2.
      destruct H1 as [H1|H1]; [apply pipeline_value in H1|apply Hsv in H1];
        (destruct H2 as [H2|H2]; [apply pipeline_body in H2|apply Hsb in H2]); simpl in H1, H2;
        repeat (destruct H1 as [H1|H1]; [inversion H1; subst; repeat (destruct H2 as [H2|H2]; [discriminate H2|]); contradiction|]);
        contradiction.
    + intros Q k H. apply Hv in H. destruct H as [H|H]; eauto.
    + intros R H. apply Hb in H. destruct H as [H|H]; eauto.
  - repeat apply Forall2_cons; try apply Forall2_nil.
    + apply an_map; [exact backward_perm|intros k [<-|[]]; simpl; intuition discriminate|exact C76_pipeline_gives].
    + apply an_struct with (s := pipeline_values); [intros; apply Permutation_rev| |exact C77_pipeline_values|].
      * intros k [<-|[]]. split; [simpl; intuition discriminate|intros n e []].
      * apply pi. eapply pi_some; [left; reflexivity| |apply pi_nil].
        apply pi. eapply pi_some; [left; reflexivity| |apply pi_nil]. apply pi. apply pi_nil.
    + apply an_map; [exact forward_perm|intros k [<-|[]]; simpl; intuition discriminate|exact C76_pipeline_gives].
Qed.

(* A document that refers to something only an earlier document has is refused alone, and
   decoded after that document. *)
Definition sets_a : vbody := VBody [("a", VNum 1)] [].
Definition reads_a : vbody := VBody [] [("u", [], VBody [("x", VRef "var" [SAttr "a"])] [])].
Definition answers_doc (given : list (string * CtyModel.cval)) (l : list call) : result (list answer) :=
  do x <- run_calls same_text show plus (Some 0) FNone l (given_tree given) 0; Ok (snd x).
Theorem C80_leak_refuted :
  (exists m, answers_doc [] [CallMap forward reads_a] = Err m) /\
  answers_doc [] [CallMap forward sets_a; CallMap forward reads_a]
  = Ok [AMap (NMap [("a", NInt 1)]); AMap (NMap [("u", NMap [("x", NInt 1)])])].
Proof. vm_compute. eauto. Qed.
Print Assumptions C80_leak_refuted.
(* A document changes the values given beforehand for those after it. *)
Theorem C80_changed_refuted :
  answers_doc [("a", whole 5)] [CallMap forward reads_a] = Ok [AMap (NMap [("u", NMap [("x", NInt 5)])])] /\
  answers_doc [("a", whole 5)] [CallMap forward sets_a; CallMap forward reads_a]
  = Ok [AMap (NMap [("a", NInt 1)]); AMap (NMap [("u", NMap [("x", NInt 1)])])].
Proof. vm_compute. auto. Qed.
Print Assumptions C80_changed_refuted.
