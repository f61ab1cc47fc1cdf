(* The properties of fileset. *)

From Verif Require Import Base CtyModel FuncModel FuncSpec FuncProofs EncModel PathModel PathSpec PathProofs FilesetModel FilesetProofs.
From Coq Require Import Lia.

(* The directory a path means: a path from the root itself, another one below the base directory. *)
Definition in_directory (base path dir : string) : Prop :=
  (rooted path /\ dir = path) \/ (~ rooted path /\ dir = base +++ "/" +++ path).
(* p is a way from the directory to m, without a start of its own *)
Definition way (dir p m : string) : Prop := ~ rooted p /\ same_paths (dir +++ "/" +++ p) m.
Definition found_there (s : stat) : Prop := s <> NoFile /\ s <> StatFailed.

Lemma not_rooted : forall p, ~ rooted p <-> is_abs p = false.
Proof. intro p. rewrite <- rooted_iff. destruct (is_abs p); split; congruence. Qed.
Lemma clean_nonempty : forall p, clean p <> "".
Proof. intro p. assert (S := clean_shortest p). intro E. rewrite E in S. apply clean_fixed in S. discriminate. Qed.
Lemma dir_model : forall base path dir, base <> "" -> in_directory base path dir -> exists d,
  (if is_abs path then path else path_join base path) = d /\ d <> "" /\ dir <> "" /\ forall a, target a d = target a dir.
Proof.
  intros base path dir Nb [[R ->]|[R ->]].
  - assert (A := proj2 (rooted_iff path) R). rewrite A. exists path. assert (path <> "") by (intros ->; discriminate). auto.
  - assert (A := proj1 (not_rooted path) R). rewrite A. eexists. split; [reflexivity|]. unfold path_join. destruct (String.eqb_spec base "") as [->|_]; [congruence|].
    split; [apply clean_nonempty|]. split; [destruct base; [congruence|discriminate]|]. intro a. rewrite clean_target. reflexivity.
Qed.
Lemma way_iff : forall d dir, d <> "" -> dir <> "" -> (forall a, target a d = target a dir) -> forall p m,
  way dir p m <-> is_abs p = false /\ forall a, target a (d +++ String slash p) = target a m.
Proof.
  intros d dir N N' G p m. unfold way. rewrite not_rooted, same_iff.
  change ("/" +++ p) with (String slash p).
  assert (X : forall a, target a (dir +++ String slash p) = target a (d +++ String slash p)) by (intro a; rewrite !target_app, G by assumption; reflexivity).
  setoid_rewrite X. tauto.
Qed.
Lemma full_model : forall d dir pattern q, d <> "" -> dir <> "" -> (forall a, target a d = target a dir) ->
  shortest q -> same_paths q (dir +++ "/" +++ pattern) -> path_join d pattern = q.
Proof.
  intros d dir pattern q N N' G S E. unfold path_join. destruct (String.eqb_spec d "") as [->|_]; [congruence|]. rewrite <- (clean_fixed q S).
  apply clean_same. intro a. rewrite same_iff in E. rewrite E. change ("/" +++ pattern) with (String slash pattern). rewrite !target_app, G by assumption. reflexivity.
Qed.

Section Names.
Variables (nfc quoted : string -> string) (stat_path : string -> stat) (stat_error : string -> string).
Lemma names_ok : forall ms d found, d <> "" ->
  (forall m, In m found -> found_there (stat_path m)) ->
  (forall m, In m found -> stat_path m = Regular -> exists p, is_abs p = false /\ forall a, target a (d +++ String slash p) = target a m) ->
  exists l, match_names nfc quoted stat_path stat_error ms d found = Ok l /\
    (forall s, In s l <-> exists m p, In m found /\ stat_path m = Regular /\ path_rel d m = Ok p /\ s = nfc p).
Proof.
  intros ms d found Nd. induction found as [|m found IH]; intros T W.
  - exists []. split; [reflexivity|]. intro s. split; [intros []|intros (m & p & [] & _)].
  - destruct IH as (l & E & I); [intros x Ix; apply T; right; exact Ix|intros x Ix; apply W; right; exact Ix|].
    destruct (T m (or_introl eq_refl)) as [T1 T2]. cbn [match_names].
    assert (Skip : stat_path m <> Regular -> forall s, In s l <-> exists m' p, In m' (m :: found) /\ stat_path m' = Regular /\ path_rel d m' = Ok p /\ s = nfc p).
    { intros NR s. rewrite I. split; intros (x & p & Ix & R & X); [exists x, p; split; [right; exact Ix|auto]|].
      destruct Ix as [<-|Ix]; [contradiction|]. exists x, p. auto. }
    destruct (stat_path m) eqn:S; try congruence; try (exists l; split; [exact E|apply Skip; discriminate]).
    destruct (W m (or_introl eq_refl) S) as (p & A & G). destruct (path_rel d m) as [r|e|e] eqn:P.
    + rewrite E. cbn [bindr]. exists (nfc r :: l). split; [reflexivity|]. intro s. cbn [In]. rewrite I. split.
      * intros [<-|(x & p' & Ix & X)]; [exists m, r; auto|exists x, p'; split; [right; exact Ix|exact X]].
      * intros (x & p' & [<-|Ix] & R & X & ->); [left; congruence|right; exists x, p'; auto].
    + destruct (rel_err d m e Nd P p A G).
    + destruct (rel_no_panic d m e P).
Qed.
Lemma names_err : forall ms d found, d <> "" -> (exists e, match_names nfc quoted stat_path stat_error ms d found = Err e) <->
  exists m, In m found /\ (~ found_there (stat_path m) \/ stat_path m = Regular /\ ~ exists p, is_abs p = false /\ forall a, target a (d +++ String slash p) = target a m).
Proof.
  intros ms d found Nd. induction found as [|m found IH].
  - split; [intros [e E]; discriminate|intros (m & [] & _)].
  - cbn [match_names]. unfold found_there in *.
    assert (Next : stat_path m <> NoFile -> stat_path m <> StatFailed -> (stat_path m = Regular -> exists p, is_abs p = false /\ forall a, target a (d +++ String slash p) = target a m) ->
      (exists x, In x (m :: found) /\ (~ (stat_path x <> NoFile /\ stat_path x <> StatFailed) \/ stat_path x = Regular /\ ~ exists p, is_abs p = false /\ forall a, target a (d +++ String slash p) = target a x)) ->
      exists x, In x found /\ (~ (stat_path x <> NoFile /\ stat_path x <> StatFailed) \/ stat_path x = Regular /\ ~ exists p, is_abs p = false /\ forall a, target a (d +++ String slash p) = target a x)).
    { intros A B C (x & [<-|Ix] & [X|[X Y]]); [tauto|destruct (Y (C X))| |]; exists x; auto. }
    assert (Prev : (exists x, In x found /\ (~ (stat_path x <> NoFile /\ stat_path x <> StatFailed) \/ stat_path x = Regular /\ ~ exists p, is_abs p = false /\ forall a, target a (d +++ String slash p) = target a x)) ->
      exists x, In x (m :: found) /\ (~ (stat_path x <> NoFile /\ stat_path x <> StatFailed) \/ stat_path x = Regular /\ ~ exists p, is_abs p = false /\ forall a, target a (d +++ String slash p) = target a x)).
    { intros (x & Ix & X). exists x. split; [right; exact Ix|exact X]. }
    destruct (stat_path m) eqn:S.
    + split; [intros _; exists m; split; [left; reflexivity|left; tauto]|intros _; eexists; reflexivity].
    + split; [intros _; exists m; split; [left; reflexivity|left; tauto]|intros _; eexists; reflexivity].
    + destruct (path_rel d m) as [r|e|e] eqn:P.
      * split.
        -- intros [e E]. apply Prev. apply IH. destruct (match_names _ _ _ _ _ _ _) as [l|x|x]; [discriminate|exists x; reflexivity|discriminate].
        -- intro X. apply Next in X; [|congruence..|intros _; exists r; apply rel_ok; assumption]. apply IH in X. destruct X as [e E]. rewrite E. exists e. reflexivity.
      * split; [|intros _; eexists; reflexivity]. intros _. exists m. split; [left; reflexivity|]. right. split; [exact S|]. intros (p & A & G).
        apply (rel_err d m e Nd P p A G).
      * destruct (rel_no_panic d m e P).
    + rewrite IH. split; [exact Prev|apply Next; congruence].
    + rewrite IH. split; [exact Prev|apply Next; congruence].
    + rewrite IH. split; [exact Prev|apply Next; congruence].
    + rewrite IH. split; [exact Prev|apply Next; congruence].
    + rewrite IH. split; [exact Prev|apply Next; congruence].
Qed.
Lemma names_no_panic : forall ms d found p, match_names nfc quoted stat_path stat_error ms d found <> Panic p.
Proof.
  intros ms d found p. induction found as [|m found IH]; [discriminate|]. cbn [match_names]. destruct (stat_path m); try discriminate; try exact IH.
  destruct (path_rel d m) as [r|e|e] eqn:P; [|discriminate|destruct (rel_no_panic d m e P)].
  destruct (match_names _ _ _ _ _ _ _) as [l|x|x]; [discriminate|discriminate|]. cbn [bindr]. congruence.
Qed.
End Names.

Lemma call_fileset : forall nfc quoted glob stat_path stat_error base early ms ms' path pattern dir q, base <> "" -> in_directory base path dir ->
  shortest q -> same_paths q (dir +++ "/" +++ pattern) -> exists d, d <> "" /\ dir <> "" /\ (forall a, target a d = target a dir) /\
  call early (fileset_func nfc quoted glob stat_path stat_error base) [Val ms (SStr path) []; Val ms' (SStr pattern) []] =
  do r <- no_panic (match glob q with
     | Ok found => do names <- match_names nfc quoted stat_path stat_error (ms ++ ms') d found; Ok (with_marks (ms ++ ms') (text_set names))
     | Err e => Err ("failed to glob pattern " +++ redact quoted q (ms ++ ms') +++ ": " +++ e)
     | Panic p => Panic p
     end); Ok (with_marks [] r).
Proof.
  intros nfc quoted glob stat_path stat_error base early ms ms' path pattern dir q Nb D S Q.
  destruct (dir_model base path dir Nb D) as (d & E & Nd & N' & G). exists d. split; [exact Nd|]. split; [exact N'|]. split; [exact G|].
  unfold call, fileset_func. cbn -[with_marks match_names text_set path_join redact no_panic is_abs]. rewrite E, (full_model d dir pattern q Nd N' G S Q). reflexivity.
Qed.
Lemma named_texts : forall l, named (map str_val l) = map (fun s => ("", plain (SStr s))) l.
Proof. induction l as [|s l IH]; [reflexivity|]. unfold named in *. cbn [map]. rewrite IH. reflexivity. Qed.

(* fileset looks for the pattern below the directory, written in the shortest way.  It gives, each
   once, ways from the directory to the regular files that are found, and a way to each of them. *)
Theorem C84_fileset : forall nfc quoted glob stat_path stat_error base early ms ms' path pattern dir q found,
  base <> "" -> in_directory base path dir -> shortest q -> same_paths q (dir +++ "/" +++ pattern) -> glob q = Ok found ->
  (forall m, In m found -> found_there (stat_path m)) ->
  (forall m, In m found -> stat_path m = Regular -> exists p, way dir p m) ->
  exists r l, call early (fileset_func nfc quoted glob stat_path stat_error base) [Val ms (SStr path) []; Val ms' (SStr pattern) []] = Ok r /\
  shape_of r = SSet str /\ elems r = map (fun s => ("", plain (SStr s))) l /\ NoDup l /\
  (forall s, In s l -> exists m p, In m found /\ stat_path m = Regular /\ way dir p m /\ s = nfc p) /\
  (forall m, In m found -> stat_path m = Regular -> exists p, way dir p m /\ In (nfc p) l) /\
  forall k, In k (marks_of r) <-> In k ms \/ In k ms'.
Proof.
  intros nfc quoted glob stat_path stat_error base early ms ms' path pattern dir q found Nb D S Q F T W.
  destruct (call_fileset nfc quoted glob stat_path stat_error base early ms ms' path pattern dir q Nb D S Q) as (d & Nd & N' & G & ->).
  rewrite F. destruct (names_ok nfc quoted stat_path stat_error (ms ++ ms') d found Nd T) as (l & -> & I).
  { intros m Im R. destruct (W m Im R) as [p P]. exists p. apply (way_iff d dir Nd N' G). exact P. }
  cbn [bindr no_panic]. eexists. exists (once l). split; [reflexivity|]. split; [reflexivity|]. split; [apply named_texts|]. split; [apply once_nodup|].
  split; [|split].
  - intros s Is. apply once_in, I in Is. destruct Is as (m & p & Im & R & P & ->). exists m, p. split; [exact Im|]. split; [exact R|]. split; [|reflexivity].
    apply (way_iff d dir Nd N' G), rel_ok; assumption.
  - intros m Im R. destruct (path_rel d m) as [p|e|e] eqn:P.
    + exists p. split; [apply (way_iff d dir Nd N' G), rel_ok; assumption|]. apply once_in, I. exists m, p. auto.
    + destruct (W m Im R) as [p X]. apply (way_iff d dir Nd N' G) in X. destruct X as [A X]. destruct (rel_err d m e Nd P p A X).
    + destruct (rel_no_panic d m e P).
  - intro k. rewrite !marks_with, in_app_iff. cbn. tauto.
Qed.
Print Assumptions C84_fileset.
(* What is found below the directory is given by its names there. *)
Theorem C84_below : forall nfc quoted glob stat_path stat_error base early ms ms' path pattern dir q found,
  base <> "" -> in_directory base path dir -> shortest q -> same_paths q (dir +++ "/" +++ pattern) -> glob q = Ok found ->
  (forall m, In m found -> found_there (stat_path m)) ->
  (forall m, In m found -> exists ns, ns <> [] /\ (forall n, In n ns -> plain_name n) /\ same_paths m (dir +++ "/" +++ slashed ns)) ->
  exists r, call early (fileset_func nfc quoted glob stat_path stat_error base) [Val ms (SStr path) []; Val ms' (SStr pattern) []] = Ok r /\
  forall s, In ("", plain (SStr s)) (elems r) <->
    exists m ns, In m found /\ stat_path m = Regular /\ ns <> [] /\ (forall n, In n ns -> plain_name n) /\ same_paths m (dir +++ "/" +++ slashed ns) /\ s = nfc (slashed ns).
Proof.
  intros nfc quoted glob stat_path stat_error base early ms ms' path pattern dir q found Nb D S Q F T W.
  destruct (call_fileset nfc quoted glob stat_path stat_error base early ms ms' path pattern dir q Nb D S Q) as (d & Nd & N' & G & ->).
  rewrite F.
  assert (B : forall m ns, ns <> [] -> (forall n, In n ns -> plain_name n) -> same_paths m (dir +++ "/" +++ slashed ns) -> path_rel d m = Ok (slashed ns)).
  { intros m ns Ne P X. apply (rel_below d m ns Nd Ne P). intro a. rewrite same_iff in X. rewrite X. change ("/" +++ slashed ns) with (String slash (slashed ns)).
    rewrite !target_app, G by assumption. reflexivity. }
  destruct (names_ok nfc quoted stat_path stat_error (ms ++ ms') d found Nd T) as (l & -> & I).
  { intros m Im R. destruct (W m Im) as (ns & Ne & P & X). exists (slashed ns). apply rel_ok; [exact Nd|]. apply B; assumption. }
  cbn [bindr no_panic]. eexists. split; [reflexivity|]. intro s. cbn [elems with_marks text_set]. rewrite named_texts, in_map_iff. split.
  - intros (s' & E & Is). assert (s' = s) by (unfold plain in E; congruence). subst s'. apply once_in, I in Is. destruct Is as (m & p & Im & R & P & ->).
    destruct (W m Im) as (ns & Ne & PN & X). rewrite (B m ns Ne PN X) in P. assert (p = slashed ns) by congruence. subst p. exists m, ns. auto 10.
  - intros (m & ns & Im & R & Ne & P & X & ->). exists (nfc (slashed ns)). split; [reflexivity|]. apply once_in, I. exists m, (slashed ns). auto.
Qed.
Print Assumptions C84_below.
(* It is refused exactly if the search is, if something found is not there, or if there is no way
   to a file that does not depend on the names of the directories above. *)
Theorem C84_refused : forall nfc quoted glob stat_path stat_error base early ms ms' path pattern dir q,
  base <> "" -> in_directory base path dir -> shortest q -> same_paths q (dir +++ "/" +++ pattern) ->
  ((exists e, call early (fileset_func nfc quoted glob stat_path stat_error base) [Val ms (SStr path) []; Val ms' (SStr pattern) []] = Err e) <->
   (forall found, glob q <> Ok found) \/
   exists found m, glob q = Ok found /\ In m found /\ (~ found_there (stat_path m) \/ stat_path m = Regular /\ forall p, ~ way dir p m)).
Proof.
  intros nfc quoted glob stat_path stat_error base early ms ms' path pattern dir q Nb D S Q.
  destruct (call_fileset nfc quoted glob stat_path stat_error base early ms ms' path pattern dir q Nb D S Q) as (d & Nd & N' & G & ->).
  assert (W := way_iff d dir Nd N' G).
  destruct (glob q) as [found|e|e] eqn:F.
  - assert (X := names_err nfc quoted stat_path stat_error (ms ++ ms') d found Nd). split.
    + intros [e E]. right. destruct (match_names nfc quoted stat_path stat_error (ms ++ ms') d found) as [l|x|x] eqn:M; [discriminate| |destruct (names_no_panic nfc quoted stat_path stat_error (ms ++ ms') d found x M)].
      destruct (proj1 X (ex_intro _ x eq_refl)) as (m & Im & Z). exists found, m. split; [reflexivity|]. split; [exact Im|].
      destruct Z as [Z|[Z Y]]; [left; exact Z|right; split; [exact Z|]]. intros p P. apply Y. exists p. apply W. exact P.
    + intros [H|(found' & m & E & Im & Z)]; [destruct (H found eq_refl)|]. assert (found' = found) by congruence. subst found'.
      assert (Y : exists e, match_names nfc quoted stat_path stat_error (ms ++ ms') d found = Err e).
      { apply X. exists m. split; [exact Im|]. destruct Z as [Z|[Z Y]]; [left; exact Z|right; split; [exact Z|]]. intros (p & P). apply (Y p). apply W. exact P. }
      destruct Y as [e ->]. exists e. reflexivity.
  - split; [intros _; left; discriminate|intros _; eexists; reflexivity].
  - split; [intros _; left; discriminate|intros _; eexists; reflexivity].
Qed.
Print Assumptions C84_refused.

(* The directory is part of the pattern: brackets in its name choose other directories.  The search
   is one that reads [1] as doublestar does. *)
Definition set_glob (q : string) : result (list string) := if String.eqb q "/b/a[1]/*" then Ok ["/b/a1/f"] else Ok [].
Theorem C84_directory_refuted : forall quoted stat_error early, exists r,
  call early (fileset_func (fun s => s) quoted set_glob (fun _ => Regular) stat_error ".") [plain (SStr "/b/a[1]"); plain (SStr "*")] = Ok r /\
  elems r = [("", plain (SStr "../a1/f"))].
Proof. intros. eexists. split; reflexivity. Qed.
Print Assumptions C84_directory_refuted.
(* ~ is a name like others here, though it is the home directory for file. *)
Definition home_glob (q : string) : result (list string) := if String.eqb q "/home/u/*" then Ok ["/home/u/f"] else Ok [].
Theorem C84_home_refuted : forall quoted stat_error early, exists r r',
  call early (fileset_func (fun s => s) quoted home_glob (fun _ => Regular) stat_error "/b") [plain (SStr "~"); plain (SStr "*")] = Ok r /\ elems r = [] /\
  call early (file_func (fun s => s) quoted (Ok "/home/u") (fun q => if String.eqb q "/home/u/f" then Bytes "x" else Missing) "/b" false) [plain (SStr "~/f")] = Ok r' /\ shape_of r' = SStr "x".
Proof. intros. eexists. eexists. repeat split. Qed.
Print Assumptions C84_home_refuted.
(* The error of the system names a sensitive path. *)
Theorem C84_secret_refuted : forall nfc quoted early, exists (stat_error : string -> string) e,
  (forall m, stat_error m = "stat " +++ m +++ ": permission denied") /\
  call early (fileset_func nfc quoted (fun _ => Ok ["/secret/f"]) (fun _ => StatFailed) stat_error ".") [Val [sensitive_mark] (SStr "/secret") []; plain (SStr "*")] = Err e /\
  e = "failed to stat (sensitive value): stat /secret/f: permission denied".
Proof. intros. exists (fun m => "stat " +++ m +++ ": permission denied"). eexists. split; [reflexivity|]. split; reflexivity. Qed.
Print Assumptions C84_secret_refuted.

(* A directory with two files and another directory, from a relative path, and a pattern that goes up. *)
Definition some_glob (q : string) : result (list string) :=
  if String.eqb q "mod/x/*" then Ok ["mod/x/a"; "mod/x/sub"; "mod/x/b"]
  else if String.eqb q "mod/*" then Ok ["mod/x"; "mod/c"] else Ok [].
Definition some_stat (q : string) : stat := if String.eqb q "mod/x/sub" || String.eqb q "mod/x" then Directory else Regular.
Example C84_sample : forall quoted stat_error early,
  (exists r, call early (fileset_func (fun s => s) quoted some_glob some_stat stat_error "./mod") [plain (SStr "y/../x/"); plain (SStr "*")] = Ok r /\
   map snd (elems r) = [plain (SStr "a"); plain (SStr "b")]) /\
  exists r, call early (fileset_func (fun s => s) quoted some_glob some_stat stat_error "./mod") [plain (SStr "x"); plain (SStr "../*")] = Ok r /\
   map snd (elems r) = [plain (SStr "../c")].
Proof. intros. split; eexists; split; reflexivity. Qed.
