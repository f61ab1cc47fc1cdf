(* Proofs for VarModel.v: evaluating an expression in the tree gives what it means in the
   environment of visible names. *)

From Verif Require Import Base CtyModel HclModel TreeModel TreeSpec TreeProofs VarModel VarSpec VarTree.

Section P.
Variable norm : string -> string.
Variable to_text : CtyModel.cval -> result string.
Variable binary : string -> CtyModel.cval -> CtyModel.cval -> result CtyModel.cval.
Notation eval := (eval to_text binary).
Notation expr_to_cty := (expr_to_cty norm to_text binary).

Definition evals vars fns (l : list vexpr) : result (list CtyModel.cval) :=
  (fix go l := match l with
   | [] => Ok []
   | e :: l' => do x <- eval vars fns e; do r <- go l'; Ok (x :: r)
   end) l.
Definition eval_texts vars fns (l : list vexpr) : result string :=
  (fix go l := match l with
   | [] => Ok ""
   | e :: l' => do v <- eval vars fns e; do x <- to_text v; do r <- go l'; Ok (x +++ r)
   end) l.
Definition eval_fields vars fns (m : list (vexpr * vexpr)) : result (list (string * CtyModel.cval)) :=
  (fix go m := match m with
   | [] => Ok []
   | (k, e) :: m' =>
     do kv <- eval vars fns k; do kt <- to_text kv;
     do x <- eval vars fns e; do r <- go m'; Ok ((kt, x) :: r)
   end) m.
Definition ctys vars fs (l : list vexpr) : result (list CtyModel.cval) :=
  (fix go l := match l with
   | [] => Ok []
   | e :: l' => do x <- expr_to_cty vars fs e; do r <- go l'; Ok (x :: r)
   end) l.
Definition cty_fields vars fs (m : list (vexpr * vexpr)) : result (list (string * CtyModel.cval)) :=
  (fix go m := match m with
   | [] => Ok []
   | (k, e) :: m' =>
     do kv <- eval vars None k;
     do x <- expr_to_cty vars fs e;
     do kt <- as_string kv;
     do r <- go m'; Ok ((kt, x) :: r)
   end) m.

Lemma insert_fresh : forall {A} (m acc : list (string * A)), NoDup (map fst m) ->
  (forall k, In k (map fst m) -> ~ In k (map fst acc)) ->
  fold_left (fun h kv => insert (fst kv) (snd kv) h) m acc = acc ++ m.
Proof.
  intros A m. induction m as [|[k v] m IH]; intros acc Hn Hd; simpl; [rewrite app_nil_r; reflexivity|].
  inversion Hn as [|? ? Hk Hn']; subst.
  assert (Hins : insert k v acc = acc ++ [(k, v)]).
  { assert (Hk' : ~ In k (map fst acc)) by (apply Hd; left; reflexivity). clear -Hk'.
    induction acc as [|[k' v'] acc IH]; simpl; [reflexivity|].
    destruct (eq_dec k k') as [->|]; [exfalso; apply Hk'; left; reflexivity|].
    f_equal. apply IH. intros Hin; apply Hk'; right; exact Hin. }
  rewrite Hins, IH; [rewrite <- app_assoc; reflexivity|exact Hn'|].
  intros x Hx. rewrite map_app, in_app_iff. simpl. intros [Hin|[<-|[]]]; [|contradiction].
  apply (Hd x); [right; exact Hx|exact Hin].
Qed.

Lemma combine_keys : forall {A B} (ks : list A) (vs : list B), List.length ks = List.length vs ->
  map fst (combine ks vs) = ks.
Proof.
  intros A B ks. induction ks as [|k ks IH]; intros [|v vs] E; simpl in *; try discriminate; [reflexivity|].
  f_equal. apply IH. congruence.
Qed.

Lemma all_mean_length : forall fs g pl l vs, all_mean norm to_text binary fs g pl l vs -> List.length l = List.length vs.
Proof. intros fs g pl l vs H. induction H; simpl; congruence. Qed.

(* ----- references ----- *)

Lemma do_steps_app : forall a b v, do_steps v (a ++ b) = do x <- do_steps v a; do_steps x b.
Proof.
  induction a as [|s a IH]; intros b v; simpl; [reflexivity|].
  destruct (do_step v s) as [x|m|m]; cbn [bindr]; [apply IH|reflexivity|reflexivity].
Qed.

Lemma spelled_field : forall m s n, spells s n -> do_step (CObj m) s = get_attr (CObj m) n.
Proof. intros m s n H. destruct H; reflexivity. Qed.

Lemma inside_steps : forall x rest v, inside x rest v -> do_steps x rest = Ok v.
Proof.
  intros x rest v H. induction H as [v|m s n x rest v Hs El Hi IH|l n x rest v En Hi IH].
  - reflexivity.
  - cbn [do_steps]. rewrite (spelled_field m s n Hs). simpl. rewrite El. cbn [bindr]. exact IH.
  - cbn [do_steps do_step get_index]. destruct (Z.ltb_spec (Z.of_nat n) 0); [lia|].
    rewrite Nat2Z.id, En. cbn [bindr]. exact IH.
Qed.

Lemma lookup_as_cty : forall (fs : list (string * TreeModel.cval CtyModel.cval)) k,
  lookup k (map (fun kv => (fst kv, as_cty (snd kv))) fs) = option_map as_cty (lookup k fs).
Proof.
  intros fs k. induction fs as [|[k' c] fs IH]; simpl; [reflexivity|].
  destruct (eq_dec k k'); [reflexivity|exact IH].
Qed.

Lemma select_steps : forall names c x pre, select c names = Some (CItem x) -> Forall2 spells pre names ->
  do_steps (as_cty c) pre = Ok x.
Proof.
  induction names as [|n names IH]; intros c x pre Hs Hp; inversion Hp as [|s ? pre' ? Hsp Hp']; subst; simpl in Hs.
  - inversion Hs; subst. reflexivity.
  - destruct c as [i|fs]; [discriminate|]. destruct (lookup n fs) as [c'|] eqn:El; [|discriminate].
    cbn [do_steps]. change (as_cty (CObject fs)) with (CObj (map (fun kv => (fst kv, as_cty (snd kv))) fs)).
    rewrite (spelled_field _ _ _ Hsp). simpl. rewrite lookup_as_cty, El. cbn [option_map bindr].
    apply IH; assumption.
Qed.

(* All names of g are visible from the root. *)
Definition sees (ok : nat -> string -> Prop) (h : heap CtyModel.cval) (r : nat) (g : env) : Prop :=
  forall names x, In (names, x) g -> vis ok h r names x.

Lemma ref_value : forall A ok h r g vars root steps names rest x v, good A h r -> sees ok h r g ->
  ctx_vars h (Some r) = Ok vars ->
  In (names, x) g -> refers root steps names rest -> inside x rest v ->
  exists m y, vars = Some m /\ lookup root m = Some y /\ do_steps y steps = Ok v.
Proof.
  intros A ok h r g vars root steps names rest x v G Hsee Ectx Hin Href Hi.
  destruct (unfold_root A h r G) as [t [Et [Hw Hname]]]. unfold ctx_vars in Ectx. rewrite Et in Ectx.
  inversion Ectx; subst vars; clear Ectx. eexists.
  pose proof (Hsee names x Hin) as Hv.
  assert (Hone : forall n ns pre, select (CObject (variables t)) (n :: ns) = Some (CItem x) -> Forall2 spells pre ns ->
            exists y, lookup n (map (fun kv => (fst kv, as_cty (snd kv))) (variables t)) = Some y /\
                      do_steps y (pre ++ rest) = Ok v).
  { intros n ns pre Hs Hp. simpl in Hs. destruct (lookup n (variables t)) as [c|] eqn:El; [|discriminate].
    exists (as_cty c). split; [rewrite lookup_as_cty, El; reflexivity|].
    rewrite do_steps_app, (select_steps ns c x pre Hs Hp). cbn [bindr]. apply inside_steps. exact Hi. }
  destruct Href as [pre names rest Hp|n pre names rest Hn Hp].
  - destruct (Hone "var" names pre) as [y [El Es]]; [|exact Hp|exists y; auto].
    apply variables_spec; [exact Hw|]. apply res_self; [exact Hname|].
    apply (vis_resolves ok h r names x (g_inv _ _ _ G) Hv false _ t Et).
  - destruct (Hone n names pre) as [y [El Es]]; [|exact Hp|exists y; auto].
    apply variables_spec; [exact Hw|]. apply (vis_resolves ok h r _ x (g_inv _ _ _ G) Hv true _ t Et).
Qed.

(* ----- expressions ----- *)

Scheme means_ind2 := Minimality for means Sort Prop
  with all_mean_ind2 := Minimality for all_mean Sort Prop.
Combined Scheme means_all_ind from means_ind2, all_mean_ind2.

Definition hfuns (fs : funcs) : option (list (string * hfunc)) :=
  match fs with FHcl m => Some m | _ => None end.
Definition go_args vars fs (l : list vexpr) : result (list native) :=
  (fix go l := match l with
   | [] => Ok []
   | e :: l' =>
     do cv <- expr_to_cty vars fs e; do x <- cty_to_native cv;
     do r <- go l'; Ok (x :: r)
   end) l.

(* Outputs of Go functions. *)
Lemma first_error_app : forall l l', Forall (fun o => is_error o = false) l -> first_error (l ++ l') = first_error l'.
Proof. intros l l' H. induction H as [|o l Ho Hl IH]; [reflexivity|]. destruct o; [discriminate|exact IH]. Qed.
Lemma first_error_none : forall l, (forall e, In (GError e) l -> e = None) -> first_error l = None \/ first_error l = Some None.
Proof.
  induction l as [|[e|v] l IH]; intros H; simpl; [auto| |].
  - right. f_equal. apply H. left; reflexivity.
  - apply IH. intros e He. apply H. right; exact He.
Qed.
Lemma outcome_ok : forall outs x, outcome norm outs x -> call_outputs norm outs = x.
Proof.
  intros outs x H. destruct H as [l m l' H|l v l' Hl H|l [->| ->]]; unfold call_outputs; try reflexivity.
  - rewrite first_error_app; [reflexivity|]. apply Forall_app in H. apply H.
  - destruct Hl as [->| ->].
    + simpl app. destruct (first_error_none (GValue v :: l')) as [E|E].
      { intros e [He|He]; [discriminate|]. apply (H e He). }
      * rewrite E. reflexivity.
      * rewrite E. destruct l' as [|o l']; [discriminate E|]. reflexivity.
    + reflexivity.
Qed.

Definition at_place vars fs (pl : place) (e : vexpr) : result CtyModel.cval :=
  match pl with
  | Whole => expr_to_cty vars fs e
  | Operand => eval vars None e
  | Argument => eval vars (hfuns fs) e
  end.
Definition at_places vars fs (pl : place) (l : list vexpr) : result (list CtyModel.cval) :=
  match pl with
  | Whole => ctys vars fs l
  | Operand => evals vars None l
  | Argument => evals vars (hfuns fs) l
  end.

Lemma texts_ok : forall vars fns parts vs ts, evals vars fns parts = Ok vs ->
  Forall2 (fun v t => to_text v = Ok t) vs ts -> eval_texts vars fns parts = Ok (joined ts).
Proof.
  intros vars fns parts. induction parts as [|e parts IH]; intros vs ts Ev Ht.
  - cbn in Ev. inversion Ev; subst. inversion Ht; subst. reflexivity.
  - unfold evals in Ev; fold (evals vars fns) in Ev.
    change ((do x <- eval vars fns e; do r <- evals vars fns parts; Ok (x :: r)) = Ok vs) in Ev.
    apply bindr_Ok in Ev. destruct Ev as [x [Ex Ev]]. apply bindr_Ok in Ev. destruct Ev as [r [Er Ev]].
    inversion Ev; subst vs. inversion Ht as [|? t ? ts' Hx Hr]; subst.
    change (eval_texts vars fns (e :: parts)) with
      (do v <- eval vars fns e; do x <- to_text v; do r <- eval_texts vars fns parts; Ok (x +++ r)).
    rewrite Ex. cbn [bindr]. rewrite Hx. cbn [bindr]. rewrite (IH r ts' Er Hr). reflexivity.
Qed.

Lemma fields_ok : forall vars fns ks es vs, List.length ks = List.length es -> evals vars fns es = Ok vs ->
  (forall k, In k ks -> to_text (CStr k) = Ok k) ->
  eval_fields vars fns (combine (map VStr ks) es) = Ok (combine ks vs).
Proof.
  intros vars fns ks. induction ks as [|k ks IH]; intros [|e es] vs El Ev Hk; try discriminate.
  - cbn in Ev. inversion Ev; subst. reflexivity.
  - change ((do x <- eval vars fns e; do r <- evals vars fns es; Ok (x :: r)) = Ok vs) in Ev.
    apply bindr_Ok in Ev. destruct Ev as [x [Ex Ev]]. apply bindr_Ok in Ev. destruct Ev as [r [Er Ev]].
    inversion Ev; subst vs. cbn [map combine].
    change (eval_fields vars fns ((VStr k, e) :: combine (map VStr ks) es)) with
      (do kv <- eval vars fns (VStr k); do kt <- to_text kv; do x <- eval vars fns e;
       do r <- eval_fields vars fns (combine (map VStr ks) es); Ok ((kt, x) :: r)).
    cbn [VarModel.eval bindr]. rewrite (Hk k (or_introl eq_refl)). cbn [bindr]. rewrite Ex. cbn [bindr].
    rewrite (IH es r); [reflexivity|simpl in El; congruence|exact Er|].
    intros k' Hk'. apply Hk. right; exact Hk'.
Qed.

Lemma cty_fields_ok : forall vars fs ks es vs, List.length ks = List.length es -> ctys vars fs es = Ok vs ->
  cty_fields vars fs (combine (map VStr ks) es) = Ok (combine ks vs).
Proof.
  intros vars fs ks. induction ks as [|k ks IH]; intros [|e es] vs El Ev; try discriminate.
  - cbn in Ev. inversion Ev; subst. reflexivity.
  - change ((do x <- expr_to_cty vars fs e; do r <- ctys vars fs es; Ok (x :: r)) = Ok vs) in Ev.
    apply bindr_Ok in Ev. destruct Ev as [x [Ex Ev]]. apply bindr_Ok in Ev. destruct Ev as [r [Er Ev]].
    inversion Ev; subst vs. cbn [map combine].
    change (cty_fields vars fs ((VStr k, e) :: combine (map VStr ks) es)) with
      (do kv <- eval vars None (VStr k); do x <- expr_to_cty vars fs e; do kt <- as_string kv;
       do r <- cty_fields vars fs (combine (map VStr ks) es); Ok ((kt, x) :: r)).
    cbn [VarModel.eval bindr]. rewrite Ex. cbn [bindr as_string].
    rewrite (IH es r); [reflexivity|simpl in El; congruence|exact Er].
Qed.

Lemma means_value : forall A ok h r g vars fs, good A h r -> sees ok h r g ->
  ctx_vars h (Some r) = Ok vars ->
  (forall pl e v, means norm to_text binary fs g pl e v -> at_place vars fs pl e = Ok v) /\
  (forall pl l vs, all_mean norm to_text binary fs g pl l vs -> at_places vars fs pl l = Ok vs).
Proof.
  intros A ok h r g vars fs G Hsee Ectx.
  apply (means_all_ind norm to_text binary fs g
           (fun pl e v => at_place vars fs pl e = Ok v)
           (fun pl l vs => at_places vars fs pl l = Ok vs)).
  - intros pl z. destruct pl; reflexivity.
  - intros pl dm dk. destruct pl; reflexivity.
  - intros pl s. destruct pl; reflexivity.
  - intros pl b. destruct pl; reflexivity.
  - intros pl. destruct pl; reflexivity.
  - intros pl root steps names rest x v Hin Href Hi.
    destruct (ref_value A ok h r g vars root steps names rest x v G Hsee Ectx Hin Href Hi) as [m [y [-> [El Es]]]].
    destruct pl; cbn [at_place VarModel.expr_to_cty VarModel.eval]; rewrite El; exact Es.
  - intros pl parts vs ts Hm IH Ht.
    destruct pl; cbn [within at_places] in IH.
    + change (at_place vars fs Whole (VTpl parts)) with (do s <- eval_texts vars None parts; Ok (CStr s)).
      rewrite (texts_ok _ _ _ _ _ IH Ht). reflexivity.
    + change (at_place vars fs Operand (VTpl parts)) with (do s <- eval_texts vars None parts; Ok (CStr s)).
      rewrite (texts_ok _ _ _ _ _ IH Ht). reflexivity.
    + change (at_place vars fs Argument (VTpl parts)) with (do s <- eval_texts vars (hfuns fs) parts; Ok (CStr s)).
      rewrite (texts_ok _ _ _ _ _ IH Ht). reflexivity.
  - intros pl o a b x y v _ IHa _ IHb Hb.
    destruct pl; cbn [within at_place VarModel.expr_to_cty VarModel.eval] in *; rewrite IHa; cbn [bindr]; rewrite IHb; exact Hb.
  - intros pl l vs _ IH. destruct pl; cbn [at_places] in IH.
    + change (at_place vars fs Whole (VTuple l)) with (do u <- ctys vars fs l; Ok (CTup u)).
      rewrite IH. reflexivity.
    + change (at_place vars fs Operand (VTuple l)) with (do u <- evals vars None l; Ok (CTup u)).
      rewrite IH. reflexivity.
    + change (at_place vars fs Argument (VTuple l)) with (do u <- evals vars (hfuns fs) l; Ok (CTup u)).
      rewrite IH. reflexivity.
  - intros pl ks es vs El Hn Hm IH Hk.
    assert (Elen : List.length ks = List.length vs).
    { rewrite El. apply (all_mean_length fs g pl es vs Hm). }
    assert (Hins : fold_left (fun h kv => insert (fst kv) (snd kv) h) (combine ks vs) [] = combine ks vs).
    { rewrite insert_fresh; [reflexivity|rewrite combine_keys by exact Elen; exact Hn|].
      intros k _ []. }
    destruct pl; cbn [at_places] in IH.
    + change (at_place vars fs Whole (VObj (combine (map VStr ks) es))) with
        (do u <- cty_fields vars fs (combine (map VStr ks) es);
         Ok (CObj (fold_left (fun h kv => insert (fst kv) (snd kv) h) u []))).
      rewrite (cty_fields_ok vars fs ks es vs El IH). cbn [bindr]. rewrite Hins. reflexivity.
    + change (at_place vars fs Operand (VObj (combine (map VStr ks) es))) with
        (do u <- eval_fields vars None (combine (map VStr ks) es);
         Ok (CObj (fold_left (fun h kv => insert (fst kv) (snd kv) h) u []))).
      rewrite (fields_ok vars None ks es vs El IH (Hk ltac:(discriminate))). cbn [bindr]. rewrite Hins. reflexivity.
    + change (at_place vars fs Argument (VObj (combine (map VStr ks) es))) with
        (do u <- eval_fields vars (hfuns fs) (combine (map VStr ks) es);
         Ok (CObj (fold_left (fun h kv => insert (fst kv) (snd kv) h) u []))).
      rewrite (fields_ok vars (hfuns fs) ks es vs El IH (Hk ltac:(discriminate))). cbn [bindr]. rewrite Hins. reflexivity.
  - intros pl funs f args f' vs v Hfs Hpl Hf Elf _ IH Hf'. subst fs. cbn [at_places hfuns] in IH.
    assert (Ec : eval vars (Some funs) (VCall f args) = Ok v).
    { change (eval vars (Some funs) (VCall f args)) with
        (match lookup f funs with
         | None => Err "call to unknown function"
         | Some g => do u <- evals vars (Some funs) args; g u
         end). rewrite Elf, IH. exact Hf'. }
    destruct pl; [|contradiction|exact Ec].
    cbn [at_place VarModel.expr_to_cty]. destruct (String.eqb_spec f "null") as [Hnull|_]; [destruct (Hf eq_refl Hnull)|exact Ec].
  - intros funs f args n run vs xs outs v Hfs Hf Hf0 Elf Hm IH Hx Hn Hrun Hout. cbn [at_place at_places] in *.
    assert (Eargs : go_args vars fs args = Ok xs /\ existsb is_nil xs = false /\ List.length xs = List.length args).
    { clear -IH Hx. revert args IH. induction Hx as [|w x vs xs [Hw Hnil] Hvs IHx]; intros args IH.
      - destruct args as [|e args]; [repeat split; reflexivity|]. change ((do x <- expr_to_cty vars fs e; do r <- ctys vars fs args; Ok (x :: r)) = Ok []) in IH.
        apply bindr_Ok in IH. destruct IH as [a [_ IH]]. apply bindr_Ok in IH. destruct IH as [b [_ IH]]. discriminate.
      - destruct args as [|e args]; [discriminate|]. change ((do x <- expr_to_cty vars fs e; do r <- ctys vars fs args; Ok (x :: r)) = Ok (w :: vs)) in IH.
        apply bindr_Ok in IH. destruct IH as [a [Ea IH]]. apply bindr_Ok in IH. destruct IH as [b [Eb IH]]. inversion IH; subst a b.
        destruct (IHx args Eb) as [E1 [E2 E3]].
        change (go_args vars fs (e :: args)) with (do cv <- expr_to_cty vars fs e; do x <- cty_to_native cv; do r <- go_args vars fs args; Ok (x :: r)).
        rewrite Ea. cbn [bindr]. rewrite Hw. cbn [bindr]. rewrite E1. cbn [bindr]. repeat split.
        + cbn [existsb]. rewrite E2. destruct x; try reflexivity. contradiction.
        + simpl. congruence. }
    destruct Eargs as [E1 [E2 E3]].
    assert (Ecall : expr_to_cty vars fs (VCall f args) =
      do u <- go_args vars fs args; call_go norm (GoFunc n run) u).
    { subst fs. cbn [VarModel.expr_to_cty]. destruct (String.eqb_spec f "null"); [contradiction|].
      destruct (String.eqb_spec f ""); [contradiction|]. rewrite Elf. reflexivity. }
    rewrite Ecall, E1. cbn [bindr call_go]. rewrite E3, Hn, Nat.eqb_refl, E2. cbn [negb]. rewrite Hrun. cbn [bindr].
    apply (outcome_ok outs (Ok v) Hout).
  - intros args Hfs. cbn [at_place VarModel.expr_to_cty]. destruct fs; [contradiction| | |]; reflexivity.
  - intros pl. destruct pl; reflexivity.
  - intros pl e l v vs _ IHe _ IHl. destruct pl; cbn [at_place at_places] in *.
    + change (ctys vars fs (e :: l)) with
        (do x <- expr_to_cty vars fs e; do r <- ctys vars fs l; Ok (x :: r)).
      rewrite IHe. cbn [bindr]. rewrite IHl. reflexivity.
    + change (evals vars None (e :: l)) with
        (do x <- eval vars None e; do r <- evals vars None l; Ok (x :: r)).
      rewrite IHe. cbn [bindr]. rewrite IHl. reflexivity.
    + change (evals vars (hfuns fs) (e :: l)) with
        (do x <- eval vars (hfuns fs) e; do r <- evals vars (hfuns fs) l; Ok (x :: r)).
      rewrite IHe. cbn [bindr]. rewrite IHl. reflexivity.
Qed.

Lemma eval_at_means : forall A ok h r g fs e v, good A h r -> sees ok h r g ->
  means norm to_text binary fs g Whole e v -> eval_at norm to_text binary h (Some r) fs e = Ok v.
Proof.
  intros A ok h r g fs e v G Hsee Hm. unfold eval_at.
  destruct (unfold_root A h r G) as [t [Et _]]. unfold ctx_vars. rewrite Et. cbn [bindr].
  apply (proj1 (means_value A ok h r g _ fs G Hsee ltac:(unfold ctx_vars; rewrite Et; reflexivity)) Whole e v Hm).
Qed.
End P.
