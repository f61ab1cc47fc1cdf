(* The properties of the path and file functions. *)

From Verif Require Import Base CtyModel FuncModel FuncSpec FuncProofs EncModel EncSpec EncProofs PathModel PathSpec PathProofs.
From Coq Require Import Lia.

Lemma call_text : forall nfc f early ms s, exists r,
  call early (on_string nfc f) [Val ms (SStr s) []] = Ok r /\ shape_of r = SStr (nfc (f s)) /\ forall m, In m (marks_of r) <-> In m ms.
Proof.
  intros nfc f early ms s. eexists. split; [reflexivity|]. split; [reflexivity|].
  intro m. rewrite marks_with. cbn. rewrite !app_nil_r. tauto.
Qed.

(* ----- C73: paths ----- *)

(* There is one shortest way to write what a path says. *)
Theorem C73_one_shortest : forall p q, shortest p -> shortest q -> same_paths p q -> p = q.
Proof. intros p q P Q S. rewrite <- (clean_fixed p P), <- (clean_fixed q Q). apply clean_same. apply same_iff. exact S. Qed.
Print Assumptions C73_one_shortest.

(* dirname gives the shortest path to what is before the last slash, and "." if there is none. *)
Theorem C73_dirname : forall nfc early ms d n, no_slash n -> exists r q,
  call early (dirname_func nfc) [Val ms (SStr (d +++ "/" +++ n)) []] = Ok r /\ shape_of r = SStr (nfc q) /\
  shortest q /\ same_paths q (d +++ "/") /\ forall m, In m (marks_of r) <-> In m ms.
Proof.
  intros nfc early ms d n N. destruct (call_text nfc path_dir early ms (d +++ "/" +++ n)) as (r & E & S & M).
  exists r, (path_dir (d +++ "/" +++ n)). split; [exact E|]. split; [exact S|]. split; [apply clean_shortest|]. split; [|exact M].
  apply same_iff. intro a. unfold path_dir. rewrite clean_target. change ("/" +++ n) with (String slash n). rewrite cut_slash by exact N. reflexivity.
Qed.
Print Assumptions C73_dirname.
Theorem C73_dirname_none : forall nfc early ms n, no_slash n -> exists r,
  call early (dirname_func nfc) [Val ms (SStr n) []] = Ok r /\ shape_of r = SStr (nfc ".") /\ forall m, In m (marks_of r) <-> In m ms.
Proof.
  intros nfc early ms n N. destruct (call_text nfc path_dir early ms n) as (r & E & S & M). exists r. split; [exact E|]. split; [|exact M].
  rewrite S. unfold path_dir. rewrite cut_none by exact N. reflexivity.
Qed.
Print Assumptions C73_dirname_none.

(* basename gives the last name, slashes after it aside. *)
Theorem C73_basename : forall nfc early ms d n k, n <> "" -> no_slash n -> (d = "" \/ exists d', d = d' +++ "/") -> exists r,
  call early (basename_func nfc) [Val ms (SStr (d +++ n +++ slashes k)) []] = Ok r /\ shape_of r = SStr (nfc n) /\ forall m, In m (marks_of r) <-> In m ms.
Proof.
  intros nfc early ms d n k Ne N D. destruct (call_text nfc path_base early ms (d +++ n +++ slashes k)) as (r & E & S & M).
  exists r. split; [exact E|]. split; [|exact M]. rewrite S. do 2 f_equal. destruct D as [->|[d' ->]].
  - apply (base_of "" n k Ne N).
  - destruct (base_of d' n k Ne N) as [B _]. rewrite !app_assoc_string in B |- *. exact B.
Qed.
Print Assumptions C73_basename.
Theorem C73_basename_none : forall nfc early ms k, exists r,
  call early (basename_func nfc) [Val ms (SStr (slashes k)) []] = Ok r /\ shape_of r = SStr (nfc (match k with O => "." | _ => "/" end)) /\
  forall m, In m (marks_of r) <-> In m ms.
Proof.
  intros nfc early ms k. destruct (call_text nfc path_base early ms (slashes k)) as (r & E & Sh & M). exists r. split; [exact E|]. split; [|exact M].
  rewrite Sh. do 2 f_equal. unfold path_base. destruct k as [|k]; [reflexivity|].
  change (slashes (S k)) with ("" +++ slashes (S k)). rewrite strip_end by (left; reflexivity). reflexivity.
Qed.
Print Assumptions C73_basename_none.

(* The two together say the path again, unless it ends in a slash. *)
Theorem C73_recombine : forall nfc early ms p, (forall q, p <> q +++ "/") -> exists d b ds bs,
  call early (dirname_func nfc) [Val ms (SStr p) []] = Ok d /\ call early (basename_func nfc) [Val ms (SStr p) []] = Ok b /\
  shape_of d = SStr (nfc ds) /\ shape_of b = SStr (nfc bs) /\ same_paths (ds +++ "/" +++ bs) p.
Proof.
  intros nfc early ms p T. destruct (call_text nfc path_dir early ms p) as (d & Ed & Sd & _), (call_text nfc path_base early ms p) as (b & Eb & Sb & _).
  exists d, b, (path_dir p), (path_base p). split; [exact Ed|]. split; [exact Eb|]. split; [exact Sd|]. split; [exact Sb|].
  apply same_iff. intro a. change ("/" +++ path_base p) with (String slash (path_base p)).
  assert (Nd : path_dir p <> "").
  { intro X. assert (Z := clean_shortest (fst (cut_last p))). unfold path_dir in X. rewrite X in Z. inversion Z as [| |l|k l Ne P H].
    destruct (repeat ".." k ++ l)%list as [|n m] eqn:E; [congruence|]. destruct m; [|destruct n; discriminate]. cbn in H. subst n.
    destruct k; cbn in E; [|discriminate]. subst l. destruct (P "" (or_introl eq_refl)) as [C _]. congruence. }
  rewrite target_app by exact Nd. unfold path_dir. rewrite clean_target.
  destruct (cut_cases p) as [N|(x & n & -> & N)].
  - rewrite cut_none by exact N. cbn [fst]. change (target a "") with a. destruct (String.eqb_spec p "") as [->|Ne]; [reflexivity|].
    destruct (base_of "" p 0 Ne N) as [_ B]. cbn [slashes] in B. rewrite app_empty in B. rewrite B. symmetry. apply target_relative.
    destruct p as [|c p]; [reflexivity|]. destruct N as [Nc _]. cbn. apply Ascii.eqb_neq. exact Nc.
  - assert (Ne : n <> "") by (intro X; subst n; apply (T x); reflexivity).
    rewrite cut_slash by exact N. cbn [fst]. destruct (base_of x n 0 Ne N) as [B _]. cbn [slashes] in B. rewrite app_empty in B. rewrite B.
    unfold target. rewrite !split_app, !fold_left_app. cbn [split_path]. f_equal.
    destruct x as [|c x]; reflexivity.
Qed.
Print Assumptions C73_recombine.
Theorem C73_recombine_refuted : exists p, forall early ms, let nfc := fun s : string => s in exists d b,
  call early (dirname_func nfc) [Val ms (SStr p) []] = Ok d /\ call early (basename_func nfc) [Val ms (SStr p) []] = Ok b /\
  shape_of d = SStr "a" /\ shape_of b = SStr "a" /\ ~ same_paths "a/a" p.
Proof.
  exists "a/". intros early ms. eexists. eexists. split; [reflexivity|]. split; [reflexivity|]. split; [reflexivity|]. split; [reflexivity|].
  intro S. rewrite same_iff in S. discriminate (S []).
Qed.
Print Assumptions C73_recombine_refuted.

(* abspath gives the shortest path from the root to where the path leads. *)
Theorem C73_abspath : forall nfc cwd here early ms p, rooted cwd -> leads [] cwd here -> exists r q,
  call early (abspath_func nfc cwd) [Val ms (SStr p) []] = Ok r /\ shape_of r = SStr (nfc q) /\ rooted q /\ shortest q /\
  (forall a b, leads a q b <-> leads here p b) /\ forall m, In m (marks_of r) <-> In m ms.
Proof.
  intros nfc cwd here early ms p R H. destruct (call_text nfc (path_abs cwd) early ms p) as (r & E & S & M). exists r, (path_abs cwd p).
  split; [exact E|]. split; [exact S|]. apply leads_iff in H. assert (Rc := R). apply rooted_iff in R. unfold path_abs.
  assert (C : forall x, is_abs x = true -> rooted (clean x)) by (intros x A; unfold clean; rewrite A; eexists; reflexivity).
  assert (Ne : cwd <> "") by (destruct Rc as [c ->]; discriminate). apply String.eqb_neq in Ne.
  destruct (is_abs p) eqn:A.
  - split; [apply C; exact A|]. split; [apply clean_shortest|]. split; [|exact M]. intros a b. rewrite !leads_iff, clean_target. unfold target. rewrite A. tauto.
  - unfold path_join. rewrite Ne. apply String.eqb_neq in Ne.
    split; [apply C; rewrite abs_app; assumption|]. split; [apply clean_shortest|]. split; [|exact M].
    intros a b. rewrite !leads_iff, clean_target, target_app by exact Ne. rewrite (target_relative here p A). subst here.
    unfold target. rewrite R. tauto.
Qed.
Print Assumptions C73_abspath.

(* pathexpand leaves a path alone, unless it starts with "~"; then the home directory stands for
   that. *)
Theorem C73_pathexpand_same : forall nfc home early ms p, no_tilde p -> exists r,
  call early (pathexpand_func nfc home) [Val ms (SStr p) []] = Ok r /\ shape_of r = SStr (nfc p) /\ forall m, In m (marks_of r) <-> In m ms.
Proof.
  intros nfc home early ms p N. assert (X : expand home p = Ok p).
  { destruct p as [|c p]; [reflexivity|]. unfold expand. destruct c as [[][][][][][][][]]; try reflexivity. destruct (N p eq_refl). }
  eexists. split; [unfold call, pathexpand_func; cbn -[expand with_marks flat_map]; rewrite X; reflexivity|]. split; [reflexivity|].
  intro m. rewrite marks_with. cbn. rewrite !app_nil_r. tauto.
Qed.
Print Assumptions C73_pathexpand_same.
Theorem C73_pathexpand_home : forall nfc h early ms p, h <> "" -> (p = "" \/ rooted p) -> exists r q,
  call early (pathexpand_func nfc (Ok h)) [Val ms (SStr ("~" +++ p)) []] = Ok r /\ shape_of r = SStr (nfc q) /\ shortest q /\
  (forall a b c, leads a h c -> (leads a q b <-> leads c ("." +++ p) b)) /\ forall m, In m (marks_of r) <-> In m ms.
Proof.
  intros nfc h early ms p Nh P. assert (X : expand (Ok h) ("~" +++ p) = Ok (path_join h p)) by (destruct P as [->|[q ->]]; reflexivity).
  eexists. exists (path_join h p). split; [unfold call, pathexpand_func; cbn -[expand with_marks flat_map append path_join]; rewrite X; reflexivity|].
  split; [reflexivity|]. unfold path_join. apply String.eqb_neq in Nh. rewrite Nh. split; [apply clean_shortest|]. split.
  - intros a b c H. rewrite leads_iff in H. rewrite !leads_iff, clean_target, target_app by (apply String.eqb_neq; exact Nh). rewrite <- H.
    enough (G : fold_left go (split_path p) c = target c ("." +++ p)) by (rewrite G; tauto).
    destruct P as [->|[q ->]]; [reflexivity|]. change ("." +++ String "/" q) with ("." +++ String slash q). rewrite target_app by discriminate.
    change (String "/" q) with (String slash q). rewrite split_slash. reflexivity.
  - intro m. rewrite marks_with. cbn -[append]. rewrite !app_nil_r. tauto.
Qed.
Print Assumptions C73_pathexpand_home.
(* Where a slash is the separator, a backslash starts a name in the home directory. *)
Theorem C73_pathexpand_backslash : forall nfc h early ms p, h <> "" -> exists r q,
  call early (pathexpand_func nfc (Ok h)) [Val ms (SStr ("~\" +++ p)) []] = Ok r /\ shape_of r = SStr (nfc q) /\ shortest q /\
  (forall a b c, leads a h c -> (leads a q b <-> leads c ("\" +++ p) b)) /\ forall m, In m (marks_of r) <-> In m ms.
Proof.
  intros nfc h early ms p Nh. assert (X : expand (Ok h) ("~\" +++ p) = Ok (path_join h ("\" +++ p))) by reflexivity.
  eexists. exists (path_join h ("\" +++ p)). split; [unfold call, pathexpand_func; cbn -[expand with_marks flat_map append path_join]; rewrite X; reflexivity|].
  split; [reflexivity|]. unfold path_join. apply String.eqb_neq in Nh. rewrite Nh. split; [apply clean_shortest|]. split.
  - intros a b c H. rewrite leads_iff in H. rewrite !leads_iff, clean_target, target_app by (apply String.eqb_neq; exact Nh). rewrite <- H.
    enough (G : fold_left go (split_path ("\" +++ p)) c = target c ("\" +++ p)) by (rewrite G; tauto).
    reflexivity.
  - intro m. rewrite marks_with. cbn -[append]. rewrite !app_nil_r. tauto.
Qed.
Print Assumptions C73_pathexpand_backslash.
Theorem C73_pathexpand_user : forall nfc home early ms c p, c <> "/"%char -> c <> "\"%char -> exists e,
  call early (pathexpand_func nfc home) [Val ms (SStr (String "~" (String c p))) []] = Err e.
Proof.
  intros nfc home early ms c p A B. eexists. unfold call, pathexpand_func. cbn -[expand with_marks flat_map].
  assert (X : expand home (String "~" (String c p)) = Err "cannot expand user-specific home dir").
  { cbn -[slash]. destruct (Ascii.eqb_spec c slash) as [->|]; [destruct (A eq_refl)|]. destruct (Ascii.eqb_spec c "\") as [->|]; [destruct (B eq_refl)|]. reflexivity. }
  rewrite X. reflexivity.
Qed.
Print Assumptions C73_pathexpand_user.

Example C73_sample : map path_dir ["/a/b/../c/d"; "a"; "../x//y/z"; "/"; "a/b/"] = ["/a/c"; "."; "../x/y"; "/"; "a/b"] /\
  map path_base ["/a/b/../c/d"; "a//"; ""; "///"; "x/.."] = ["d"; "a"; "."; "/"; ".."] /\
  map (path_abs "/w/d") ["../e/./f"; "/q/../r"; ""] = ["/w/e/f"; "/r"; "/w/d"] /\
  map (expand (Ok "/home/u/")) ["~/a/../b"; "~"; "a~"; "~x"] = [Ok "/home/u/b"; Ok "/home/u"; Ok "a~"; Err "cannot expand user-specific home dir"].
Proof. repeat split; reflexivity. Qed.

(* ----- C74: files ----- *)

(* A system of files by place: what a path opens is what is where it leads from the working
   directory. *)
Definition by_place {A} (here : place) (open_path : string -> A) (at_place : place -> A) : Prop :=
  forall p b, leads here p b -> open_path p = at_place b.
(* What a path names for a function of the directory dir: where it leads from there, the home
   directory standing for a ~ in front. *)
Inductive names (home : result string) (dir : place) : string -> place -> Prop :=
| names_path : forall p b, no_tilde p -> leads dir p b -> names home dir p b
| names_home : forall h c p b, home = Ok h -> h <> "" -> leads dir h c -> p = "" \/ rooted p -> leads c ("." +++ p) b -> names home dir ("~" +++ p) b
| names_backslash : forall h c p b, home = Ok h -> h <> "" -> leads dir h c -> leads c ("\" +++ p) b -> names home dir ("~\" +++ p) b.
Lemma expand_place : forall home dir p b, names home dir p b -> exists q, expand home p = Ok q /\ leads dir q b.
Proof.
  intros home dir p b H. destruct H as [p b N B|h c p b -> Nh D P B|h c p b -> Nh D B].
  - exists p. split; [|exact B]. destruct p as [|c p]; [reflexivity|]. unfold expand. destruct c as [[][][][][][][][]]; try reflexivity. destruct (N p eq_refl).
  - destruct (C73_pathexpand_home (fun s => s) h (fun _ => []) [] p Nh P) as (r & q & C & S & _ & L & _).
    assert (X : expand (Ok h) ("~" +++ p) = Ok (path_join h p)) by (destruct P as [->|[x ->]]; reflexivity).
    unfold call, pathexpand_func in C. cbn -[expand with_marks flat_map append path_join] in C. rewrite X in C. injection C as <-.
    injection S as S. exists (path_join h p). split; [exact X|]. rewrite S. apply (L dir b c D). exact B.
  - destruct (C73_pathexpand_backslash (fun s => s) h (fun _ => []) [] p Nh) as (r & q & C & S & _ & L & _).
    assert (X : expand (Ok h) ("~\" +++ p) = Ok (path_join h ("\" +++ p))) by reflexivity.
    unfold call, pathexpand_func in C. cbn -[expand with_marks flat_map append path_join] in C. rewrite X in C. injection C as <-.
    injection S as S. exists (path_join h ("\" +++ p)). split; [exact X|]. change ("\" +++ p) with (String "\" p). rewrite S. apply (L dir b c D). exact B.
Qed.
Lemma full_place : forall home base here dir p b, leads here base dir -> names home dir p b -> exists q,
  full_path home base p = Ok q /\ leads here q b.
Proof.
  intros home base here dir p0 b D H. destruct (expand_place _ _ _ _ H) as (p & X & B).
  unfold full_path. rewrite X. eexists. split; [reflexivity|]. apply leads_iff in D, B. apply leads_iff. rewrite clean_target.
  destruct (is_abs p) eqn:A.
  - rewrite B. unfold target. rewrite A. reflexivity.
  - rewrite target_join by exact A. rewrite <- D. exact B.
Qed.

(* file gives the bytes where the path leads from the base directory, if they are UTF-8. *)
Theorem C74_file : forall nfc quoted home open_path at_place base here dir early ms p b src,
  by_place here open_path at_place -> leads here base dir -> names home dir p b -> at_place b = Bytes src -> utf8 src -> exists r,
  call early (file_func nfc quoted home open_path base false) [Val ms (SStr p) []] = Ok r /\ shape_of r = SStr (nfc src) /\
  forall m, In m (marks_of r) <-> In m ms.
Proof.
  intros nfc quoted home open_path at_place base here dir early ms p b src O D B S U. destruct (full_place home base here dir p b D B) as (q & F & Q).
  apply utf8_iff in U. eexists. split.
  - unfold call, file_func. cbn -[full_path with_marks flat_map utf8_valid redact]. unfold read_file. rewrite F. cbn [bindr]. rewrite (O q b Q), S. cbn [bindr]. rewrite U. reflexivity.
  - split; [reflexivity|]. intro m. rewrite !marks_with. cbn. tauto.
Qed.
Print Assumptions C74_file.
(* filebase64 gives them in base 64, whatever they are. *)
Theorem C74_base64 : forall nfc quoted home open_path at_place base here dir early ms p b src, ascii_stays nfc ->
  by_place here open_path at_place -> leads here base dir -> names home dir p b -> at_place b = Bytes src -> exists r t rest,
  call early (file_func nfc quoted home open_path base true) [Val ms (SStr p) []] = Ok r /\ shape_of r = SStr t /\ base64 t src rest /\
  forall m, In m (marks_of r) <-> In m ms.
Proof.
  intros nfc quoted home open_path at_place base here dir early ms p b src A O D B S. destruct (full_place home base here dir p b D B) as (q & F & Q).
  destruct (encode_spec src) as (rest & E & _). eexists. exists (encode64 src), rest. split.
  - unfold call, file_func. cbn -[full_path with_marks flat_map encode64 redact]. unfold read_file. rewrite F. cbn [bindr]. rewrite (O q b Q), S. cbn [bindr]. reflexivity.
  - split; [cbn -[encode64]; rewrite (A _ (encode_ascii src)); reflexivity|]. split; [exact E|]. intro m. rewrite !marks_with. cbn -[encode64]. tauto.
Qed.
Print Assumptions C74_base64.
(* The hash functions for files give what those for strings give for the contents. *)
Theorem C74_hash : forall nfc home open_path at_place base here dir early ms p b src h enc,
  by_place here open_path at_place -> leads here base dir -> names home dir p b -> at_place b = Bytes src -> exists r r',
  call early (file_hash_func nfc home open_path base h enc) [Val ms (SStr p) []] = Ok r /\
  call early (hash_func nfc h enc) [plain (SStr src)] = Ok r' /\ shape_of r = shape_of r' /\ forall m, In m (marks_of r) <-> In m ms.
Proof.
  intros nfc home open_path at_place base here dir early ms p b src h enc O D B S. destruct (full_place home base here dir p b D B) as (q & F & Q).
  eexists. eexists. split; [unfold call, file_hash_func; cbn -[full_path with_marks flat_map]; rewrite F; cbn [bindr]; rewrite (O q b Q), S; reflexivity|].
  split; [reflexivity|]. split; [reflexivity|]. intro m. rewrite marks_with. cbn. rewrite !app_nil_r. tauto.
Qed.
Print Assumptions C74_hash.
(* fileexists: regular files are there, missing ones are not, anything else is an error. *)
Theorem C74_exists : forall quoted home stat_path at_place base here dir early ms p b,
  by_place here stat_path at_place -> leads here base dir -> names home dir p b ->
  match at_place b with
  | Regular => exists r, call early (fileexists_func quoted home stat_path base) [Val ms (SStr p) []] = Ok r /\ shape_of r = SBool true /\ forall m, In m (marks_of r) <-> In m ms
  | NoFile => exists r, call early (fileexists_func quoted home stat_path base) [Val ms (SStr p) []] = Ok r /\ shape_of r = SBool false /\ forall m, In m (marks_of r) <-> In m ms
  | _ => exists e, call early (fileexists_func quoted home stat_path base) [Val ms (SStr p) []] = Err e
  end.
Proof.
  intros quoted home stat_path at_place base here dir early ms p b O D B. destruct (full_place home base here dir p b D B) as (q & F & Q).
  rewrite <- (O q b Q).
  assert (C : call early (fileexists_func quoted home stat_path base) [Val ms (SStr p) []] =
              do v <- match stat_path q with
                      | NoFile => Ok (with_marks ms (bool_val false))
                      | StatFailed => Err ("failed to stat " +++ redact quoted q ms)
                      | Regular => Ok (with_marks ms (bool_val true))
                      | Directory => Err (redact quoted q ms +++ " is a directory, not a file")
                      | Device => Err (redact quoted q ms +++ " is a device node, not a regular file")
                      | Pipe => Err (redact quoted q ms +++ " is a named pipe, not a regular file")
                      | Socket => Err (redact quoted q ms +++ " is a unix domain socket, not a regular file")
                      | Irregular => Err (redact quoted q ms +++ " is not a regular file")
                      end; Ok (with_marks [] v)).
  { unfold call, fileexists_func. cbn -[full_path with_marks redact]. rewrite F. cbn [bindr].
    destruct (stat_path q); reflexivity. }
  rewrite C. destruct (stat_path q); cbn [bindr]; eexists; try reflexivity; (split; [reflexivity|]); (split; [reflexivity|]).
  all: intro m; rewrite !marks_with; cbn; tauto.
Qed.
Print Assumptions C74_exists.

(* The home directory of another user, and a home directory that cannot be found, are errors. *)
Theorem C74_no_home : forall nfc quoted home open_path stat_path base b64 h enc early ms p,
  (exists c q, p = String "~" (String c q) /\ c <> "/"%char /\ c <> "\"%char) \/
  (exists e q, home = Err e /\ (p = "~" \/ p = ("~/" +++ q) \/ p = ("~\" +++ q))) ->
  (exists e, call early (file_func nfc quoted home open_path base b64) [Val ms (SStr p) []] = Err e) /\
  (exists e, call early (file_hash_func nfc home open_path base h enc) [Val ms (SStr p) []] = Err e) /\
  (exists e, call early (fileexists_func quoted home stat_path base) [Val ms (SStr p) []] = Err e).
Proof.
  intros nfc quoted home open_path stat_path base b64 h enc early ms p H.
  assert (X : exists e, expand home p = Err e).
  { destruct H as [(c & q & -> & A & B)|(e & q & -> & [->|[->| ->]])]; try (eexists; reflexivity).
    exists "cannot expand user-specific home dir". cbn -[slash]. destruct (Ascii.eqb_spec c slash) as [->|]; [destruct (A eq_refl)|].
    destruct (Ascii.eqb_spec c "\") as [->|]; [destruct (B eq_refl)|]. reflexivity. }
  destruct X as [e X]. assert (F : exists e, full_path home base p = Err e) by (unfold full_path; rewrite X; eexists; reflexivity). destruct F as [f F].
  split; [|split]; unfold call, file_func, file_hash_func, fileexists_func; cbn -[full_path with_marks flat_map redact utf8_valid encode64]; unfold read_file; rewrite F; eexists; reflexivity.
Qed.
Print Assumptions C74_no_home.

(* A missing file and contents that are not UTF-8 do not betray a sensitive path. *)
Theorem C74_redacted : forall nfc quoted home open_path base enc early ms p p' e e', In sensitive_mark ms -> no_tilde p -> no_tilde p' ->
  (forall q q', full_path home base p = Ok q -> full_path home base p' = Ok q' ->
     (open_path q = Missing /\ open_path q' = Missing) \/ exists b b', open_path q = Bytes b /\ open_path q' = Bytes b') ->
  call early (file_func nfc quoted home open_path base enc) [Val ms (SStr p) []] = Err e ->
  call early (file_func nfc quoted home open_path base enc) [Val ms (SStr p') []] = Err e' -> e = e'.
Proof.
  intros nfc quoted home open_path base enc early ms p p' e e' I N N' K H H'.
  assert (X : forall p, no_tilde p -> expand home p = Ok p).
  { intros [|c s] Ns; [reflexivity|]. unfold expand. destruct c as [[][][][][][][][]]; try reflexivity. destruct (Ns s eq_refl). }
  assert (R : forall s, redact quoted s ms = redact quoted "" ms).
  { intro s. unfold redact. assert (Y : has_mark sensitive_mark ms = true).
    { unfold has_mark. apply existsb_exists. exists sensitive_mark. split; [exact I|apply String.eqb_refl]. } rewrite Y. reflexivity. }
  unfold call, file_func in H, H'. cbn -[full_path with_marks flat_map redact utf8_valid encode64] in H, H'. unfold read_file in H, H'.
  rewrite (R p) in H. rewrite (R p') in H'.
  destruct (full_path home base p) as [q|?|?] eqn:F; [|unfold full_path in F; rewrite (X p N) in F; discriminate..].
  destruct (full_path home base p') as [q'|?|?] eqn:F'; [|unfold full_path in F'; rewrite (X p' N') in F'; discriminate..].
  cbn [bindr] in H, H'. destruct (K q q' eq_refl eq_refl) as [[O O']|(b & b' & O & O')]; rewrite O in H; rewrite O' in H'; cbn -[append redact utf8_valid with_marks encode64] in H, H'; [congruence|].
  destruct enc; [discriminate|]. destruct (utf8_valid b), (utf8_valid b'); cbn -[append redact with_marks] in H, H'; congruence.
Qed.
Print Assumptions C74_redacted.
(* What is said about a sensitive path, one in the home directory included: one of three texts that
   are the same for every path, or the error of the library or of the operating system. *)
Theorem C74_messages : forall nfc quoted home open_path base enc early ms p e, In sensitive_mark ms -> (forall m, home <> Panic m) ->
  call early (file_func nfc quoted home open_path base enc) [Val ms (SStr p) []] = Err e ->
  e = "no file exists at (sensitive value); this function works only with files that are distributed as part of the configuration source code, so if this file will be created by a resource in this configuration you must instead obtain this result from an attribute of that resource"
  \/ (enc = false /\ e = "contents of (sensitive value) are not valid UTF-8; use the filebase64 function to obtain the Base64 encoded contents or the other file functions (e.g. filemd5, filesha256) to obtain file hashing results instead")
  \/ (~ no_tilde p /\ (e = "failed to expand ~: cannot expand user-specific home dir" \/ exists h, home = Err h /\ e = "failed to expand ~: " +++ h))
  \/ exists q msg, (open_path q = Failed msg /\ e = msg) \/ (open_path q = Unreadable msg /\ e = "failed to read file: " +++ msg).
Proof.
  intros nfc quoted home open_path base enc early ms p e I HP H.
  assert (R : redact quoted p ms = "(sensitive value)").
  { unfold redact. assert (Y : has_mark sensitive_mark ms = true).
    { unfold has_mark. apply existsb_exists. exists sensitive_mark. split; [exact I|apply String.eqb_refl]. } rewrite Y. reflexivity. }
  unfold call, file_func in H. cbn -[full_path with_marks flat_map redact utf8_valid encode64] in H. unfold read_file in H. rewrite R in H.
  destruct (full_path home base p) as [q|x|x] eqn:F; cbn [bindr] in H.
  - destruct (open_path q) as [|msg|msg|b] eqn:O; cbn -[append utf8_valid with_marks encode64] in H.
    + left. injection H as <-. reflexivity.
    + right; right; right. exists q, msg. left. split; [exact O|congruence].
    + right; right; right. exists q, msg. right. split; [exact O|congruence].
    + destruct enc; [discriminate|]. destruct (utf8_valid b); cbn -[append with_marks] in H; [discriminate|].
      right; left. split; [reflexivity|]. injection H as <-. reflexivity.
  - right; right; left. unfold full_path in F.
    assert (T : ~ no_tilde p).
    { intro N. assert (X : expand home p = Ok p).
      { destruct p as [|c s]; [reflexivity|]. unfold expand. destruct c as [[][][][][][][][]]; try reflexivity. destruct (N s eq_refl). }
      rewrite X in F. discriminate. }
    split; [exact T|]. destruct (expand home p) as [q|y|y] eqn:E; [discriminate| |discriminate].
    assert (Q : e = "failed to expand ~: " +++ y) by (cbn -[append] in H; congruence). subst e.
    unfold expand in E. destruct p as [|c s]; [discriminate|]. destruct c as [[][][][][][][][]]; try discriminate E.
    destruct s as [|c s].
    + destruct home as [d|h|h]; try discriminate E. right. exists h. split; [reflexivity|]. cbn [bindr] in E. congruence.
    + destruct (Ascii.eqb c slash || Ascii.eqb c "\"); [|left; injection E as <-; reflexivity].
      destruct home as [d|h|h]; try discriminate E. right. exists h. split; [reflexivity|]. cbn [bindr] in E. congruence.
  - exfalso. unfold full_path, expand in F. destruct home as [d|h|h]; [| |exact (HP h eq_refl)];
      (destruct p as [|c s]; [discriminate|]; destruct c as [[][][][][][][][]]; try discriminate F; destruct s as [|c s]; [discriminate|];
       destruct (Ascii.eqb c slash || Ascii.eqb c "\"); discriminate).
Qed.
Print Assumptions C74_messages.
(* Other errors do: they are those of the operating system, which name the path. *)
Theorem C74_redacted_refuted : exists open_path : string -> opened, (forall q, open_path q = Failed ("open " +++ q +++ ": permission denied")) /\
  forall nfc quoted home early, call early (file_func nfc quoted home open_path "." false) [Val [sensitive_mark] (SStr "/keys/alice") []] = Err "open /keys/alice: permission denied".
Proof. eexists. split; [intro q; reflexivity|]. reflexivity. Qed.
Print Assumptions C74_redacted_refuted.
(* The hash functions name even a missing file. *)
Theorem C74_hash_redacted_refuted : forall nfc home h enc early,
  call early (file_hash_func nfc home (fun _ => Missing) "." h enc) [Val [sensitive_mark] (SStr "/keys/alice") []] = Err "open /keys/alice: no such file or directory".
Proof. reflexivity. Qed.
Print Assumptions C74_hash_redacted_refuted.

Example C74_home_sample : forall nfc quoted early,
  let open_path := fun q => if String.eqb q "/home/u/a.txt" then Bytes "hi" else Missing in
  map (fun p => call early (file_func nfc quoted (Ok "/home/u") open_path "/w/m" false) [Val ["m"] (SStr p) []]) ["~/a.txt"; "~/x/../a.txt"; "~u/a.txt"]
  = [Ok (Val ["m"] (SStr (nfc "hi")) []); Ok (Val ["m"] (SStr (nfc "hi")) []); Err "failed to expand ~: cannot expand user-specific home dir"].
Proof. reflexivity. Qed.
(* Paths are not confined to the base directory. *)
Example C74_sample : forall nfc quoted home early,
  let open_path := fun q => if String.eqb q "/w/a.txt" then Bytes "hi" else if String.eqb q "/etc/x" then Bytes "root" else Missing in
  map (fun p => call early (file_func nfc quoted home open_path "/w/m" false) [Val ["m"] (SStr p) []]) ["../a.txt"; "/etc/x"; "../../etc/x"; "/w/./b/../a.txt"]
  = map (fun s => Ok (Val ["m"] (SStr (nfc s)) [])) ["hi"; "root"; "root"; "hi"].
Proof. reflexivity. Qed.
