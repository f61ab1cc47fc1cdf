(* Texts that decodeMap takes for objects and for bodies. *)

From Verif Require Import Base HclModel HclSpec HclDecode HclParse HclGrammar HclLex HclGrammarProofs PlainScan StructModel StructScan StructParse FitSpec.
From Coq Require Import Lia.
Local Open Scope nat_scope.
Local Notation scan := HclModel.scan.
Local Notation step := HclModel.step.
Local Notation step0 := HclModel.step0.

(* ----- pieces of texts ----- *)

Lemma cons_inv : forall A (x y : A) l m, x :: l = y :: m -> x = y /\ l = m.
Proof. intros A x y l m H. injection H. auto. Qed.
Lemma append_same : forall a b c d : string, a +++ b = c +++ d -> String.length a = String.length c -> a = c /\ b = d.
Proof.
  induction a as [|x a IH]; intros b [|y c] d E L; try discriminate L; [auto|]. cbn in E. injection E as -> E.
  destruct (IH _ _ _ E) as [-> ->]; [cbn in L; lia|auto].
Qed.
Lemma substring_app : forall a b, String.substring 0 (String.length a) (a +++ b) = a.
Proof. induction a as [|x a IH]; intro b; [destruct b; reflexivity|]. cbn. f_equal. apply IH. Qed.
Lemma slice_app : forall a b c o z, o = String.length a -> z = o + String.length b -> slice (a +++ b +++ c) o z = b.
Proof.
  intros a b c o z -> ->. unfold slice. replace (String.length a + String.length b - String.length a) with (String.length b) by lia.
  induction a as [|x a IH]; [apply (substring_app b c)|exact IH].
Qed.
Lemma pscan_of_scan_at : forall s pos ts, scan LNone s = Ok ts -> exists pts, pscan LNone 0 pos s = Ok pts.
Proof. intros s pos ts H. rewrite (pscan_scan s LNone 0 pos) in H. apply bindr_Ok in H as (pts & H & _). eauto. Qed.

(* ----- bodies ----- *)

Theorem decode_map_body : forall s b, parse_config s = Ok b -> b <> [] -> decode_map s = decode_body b.
Proof. intros s b H N. apply document_decoded; [apply document_iff; exact H|exact N]. Qed.

(* ----- where braces and equals signs stand ----- *)

Definition sign (t : token) : string := match t with TLBrace => "{" | TRBrace => "}" | _ => "=" end.
Definition signed (t : token) : Prop := t = TLBrace \/ t = TRBrace \/ t = TEq.
Lemma step0_sign : forall c p, step0 c = Ok p ->
  (fst p = [] /\ (snd p = LEq -> c = "="%char)) \/
  (exists t, fst p = [t] /\ snd p = LNone /\ t <> TEq /\ (signed t -> sign t = String c "")).
Proof.
  intros c p H. destruct c as [[] [] [] [] [] [] [] []]; vm_compute in H; try discriminate H; injection H as <-;
    first [left; split; [reflexivity|first [reflexivity|discriminate]]
          |right; eexists; split; [reflexivity|split; [reflexivity|split; [discriminate|intros [X|[X|X]]; first [discriminate X|reflexivity]]]]].
Qed.
Definition held_back (st : lexst) (t : token) : Prop := pending st = true /\ t <> TLBrace /\ t <> TRBrace /\ (t = TEq -> st = LEq).
Lemma step_sign : forall st c p, step st c = Ok p ->
  (st = LNone /\ step0 c = Ok p) \/
  (exists t p0, held_back st t /\ step0 c = Ok p0 /\ p = (t :: fst p0, snd p0)) \/
  (fst p = [] /\ snd p <> LEq) \/
  (in_text st = true /\ snd p = LNone /\ exists t, fst p = [t] /\ ~ signed t).
Proof.
  assert (M : forall st t c p, held_back st t -> emit t (step0 c) = Ok p -> exists t p0, held_back st t /\ step0 c = Ok p0 /\ p = (t :: fst p0, snd p0)).
  { intros st t c p B H. unfold emit in H. apply bindr_Ok in H as (q & Q & H). injection H as <-. eauto. }
  assert (S : forall acc c p, in_string acc c = Ok p -> (fst p = [] /\ snd p <> LEq) \/ (snd p = LNone /\ exists t, fst p = [t] /\ ~ signed t)).
  { intros acc c p H. unfold in_string in H.
    repeat match type of H with (if ?x then _ else _) = _ => destruct x end; try discriminate; injection H as <-;
      first [left; split; [reflexivity|discriminate]|right; split; [reflexivity|eexists; split; [reflexivity|intros [X|[X|X]]; discriminate X]]]. }
  intros st c p H. destruct st as [|acc|z|z|dm dk|dm dk|dm dk ng|dm dk ng x| |acc|acc|m acc| | | |]; cbn [HclModel.step] in H; [left; auto|right..].
  - destruct (ident_char c); [right; left; injection H as <-; split; [reflexivity|discriminate]|]. left. eapply M; [|exact H]. repeat split; try reflexivity; discriminate.
  - destruct (digit_char c); [right; left; injection H as <-; split; [reflexivity|discriminate]|].
    destruct (Ascii.eqb c "."); [right; left; injection H as <-; split; [reflexivity|discriminate]|]. destruct (exp_char c); [right; left; injection H as <-; split; [reflexivity|discriminate]|].
    left. eapply M; [|exact H]. repeat split; try reflexivity; discriminate.
  - destruct (digit_char c); [right; left; injection H as <-; split; [reflexivity|discriminate]|discriminate].
  - destruct (digit_char c); [right; left; injection H as <-; split; [reflexivity|discriminate]|]. destruct (exp_char c); [right; left; injection H as <-; split; [reflexivity|discriminate]|].
    left. eapply M; [|exact H]. repeat split; try reflexivity; discriminate.
  - right; left. repeat match type of H with (if ?x then _ else _) = _ => destruct x end; try discriminate; injection H as <-; (split; [reflexivity|discriminate]).
  - destruct (digit_char c); [right; left; injection H as <-; split; [reflexivity|discriminate]|discriminate].
  - destruct (digit_char c); [right; left; injection H as <-; split; [reflexivity|discriminate]|]. destruct (exp_char c); [discriminate|].
    left. eapply M; [|exact H]. repeat split; try reflexivity; unfold with_exp; destruct (0 <=? _)%Z; discriminate.
  - destruct (Ascii.eqb c "="); [discriminate|]. left. eapply M; [|exact H]. repeat split; try reflexivity; discriminate.
  - right. apply S in H as [H|H]; [left|right]; auto.
  - repeat match type of H with (if ?x then _ else _) = _ => destruct x end; try discriminate; injection H as <-; right; left; (split; [reflexivity|discriminate]).
  - destruct (Ascii.eqb c "{"); [discriminate|]. destruct (mark_char c); [discriminate|]. right. apply S in H as [H|H]; [left|right]; auto.
  - right; left. repeat match type of H with (if ?x then _ else _) = _ => destruct x end; try discriminate; injection H as <-; (split; [reflexivity|discriminate]).
  - destruct (Ascii.eqb c "010"); injection H as <-; right; [right|left; split; [reflexivity|discriminate]].
    split; [reflexivity|]. split; [reflexivity|]. exists TNl. split; [reflexivity|]. intros [X|[X|X]]; discriminate X.
  - right; left. repeat match type of H with (if ?x then _ else _) = _ => destruct x end; injection H as <-; (split; [reflexivity|discriminate]).
  - right; left. repeat match type of H with (if ?x then _ else _) = _ => destruct x end; injection H as <-; (split; [reflexivity|discriminate]).
Qed.

Lemma sign_at : forall s st start pos A t i j R, signed t -> (st = LEq -> pos = S start) ->
  pscan st start pos s = Ok (A ++ (t, (i, j)) :: R) ->
  (st = LEq /\ A = [] /\ t = TEq /\ i = start /\ j = pos) \/
  (exists s1 s2, s = s1 +++ sign t +++ s2 /\ i = pos + String.length s1 /\ j = S i /\
     (t <> TEq -> forall u, pscan st start pos (s1 +++ sign t +++ u) = do r <- pscan LNone 0 j u; Ok (A ++ (t, (i, j)) :: r))).
Proof.
  induction s as [|c s IH]; intros st start pos A t i j R Sg Inv H.
  - left. destruct st; cbn in H; try discriminate; injection H as H; destruct A as [|a [|? ?]]; try discriminate; injection H; intros; subst;
      try (unfold with_exp in Sg; destruct (0 <=? _)%Z); destruct Sg as [X|[X|X]]; try discriminate X; auto.
  - cbn [pscan] in H. apply bindr_Ok in H as (p & P & H). apply bindr_Ok in H as (ts & T & H). injection H as H.
    (* further on *)
    assert (Later : forall A', A = (place st start pos (fst p) ++ A')%list -> ts = (A' ++ (t, (i, j)) :: R)%list ->
      (snd p = LEq -> c = "="%char /\ restart st start pos (fst p) = pos) ->
      exists s1 s2, String c s = s1 +++ sign t +++ s2 /\ i = pos + String.length s1 /\ j = S i /\
        (t <> TEq -> forall u, pscan st start pos (s1 +++ sign t +++ u) = do r <- pscan LNone 0 j u; Ok (A ++ (t, (i, j)) :: r))).
    { intros A' EA Et Q. subst ts. destruct (fun I => IH _ _ _ _ _ _ _ _ Sg I T) as [(X1 & X2 & X3 & X4 & X5)|(s1 & s2 & X1 & X2 & X3 & X4)].
      - intro X. destruct (Q X) as [_ Y]. rewrite Y. reflexivity.
      - destruct (Q X1) as [-> Y]. subst A' t. rewrite Y in X4. subst i j. exists "", s. split; [reflexivity|]. split; [cbn; lia|]. split; [reflexivity|congruence].
      - subst s. exists (String c s1), s2. split; [reflexivity|]. split; [cbn; lia|]. split; [exact X3|]. intros N u. cbn [String.append pscan]. rewrite P. cbn [bindr].
        rewrite (X4 N u). destruct (pscan LNone 0 j u); [|reflexivity|reflexivity]. cbn [bindr]. rewrite EA, <- app_assoc. reflexivity. }
    (* this character, between tokens *)
    assert (Here : forall pre p0, step0 c = Ok p0 -> snd p = snd p0 -> place st start pos (fst p) = (pre ++ map (fun t => (t, (pos, S pos))) (fst p0))%list ->
      restart st start pos (fst p) = pos -> (List.length pre <= 1) -> (forall x, In x pre -> fst x = t -> st = LEq /\ t = TEq /\ snd x = (start, pos)) ->
      (st = LEq /\ A = [] /\ t = TEq /\ i = start /\ j = pos) \/ 
      (exists s1 s2, String c s = s1 +++ sign t +++ s2 /\ i = pos + String.length s1 /\ j = S i /\
        (t <> TEq -> forall u, pscan st start pos (s1 +++ sign t +++ u) = do r <- pscan LNone 0 j u; Ok (A ++ (t, (i, j)) :: r)))).
    { intros pre p0 S0 E2 Pl Re Le Ip. rewrite Pl in H.
      assert (Split : (exists l, (pre = [] \/ exists x, pre = [x]) /\ l = pre)) by (exists pre; split; [destruct pre as [|x [|? ?]]; [auto|eauto|cbn in Le; lia]|reflexivity]).
      destruct (step0_sign c p0 S0) as [(F & Q)|(t1 & F & N & Nq & Q)]; rewrite F in H, Pl; cbn [map] in H, Pl.
      - rewrite app_nil_r in H, Pl. destruct Split as (l & [E0|(x & E0)] & _).
        + right. apply (Later A); [rewrite Pl, E0; reflexivity|rewrite E0 in H; exact H|]. rewrite E2. intro X. split; [exact (Q X)|exact Re].
        + rewrite E0 in H. cbn [app] in H. destruct A as [|a A].
          * apply cons_inv in H as [X H]. destruct (Ip x) as (I1 & I2 & I3); [rewrite E0; left; reflexivity|rewrite X; reflexivity|]. left. rewrite X in I3. cbn in I3. injection I3 as -> ->. auto.
          * apply cons_inv in H as [X H]. right. apply (Later A); [rewrite Pl, E0, X; reflexivity|exact H|]. rewrite E2. intro Y. split; [exact (Q Y)|exact Re].
      - assert (Hit : A = pre -> (t1, (pos, S pos)) = (t, (i, j)) -> exists s1 s2, String c s = s1 +++ sign t +++ s2 /\ i = pos + String.length s1 /\ j = S i /\
          (t <> TEq -> forall u, pscan st start pos (s1 +++ sign t +++ u) = do r <- pscan LNone 0 j u; Ok (A ++ (t, (i, j)) :: r))).
        { intros -> X. injection X as -> <- <-. exists "", s. rewrite (Q Sg). split; [reflexivity|]. split; [cbn; lia|]. split; [reflexivity|]. intros _ u.
          cbn [String.append pscan]. rewrite P. cbn [bindr]. rewrite E2, N, Re, (pscan_start u pos 0), Pl. destruct (pscan LNone 0 (S pos) u); [|reflexivity|reflexivity].
          cbn [bindr]. rewrite <- app_assoc. reflexivity. }
        assert (Lt : forall A', A = (pre ++ (t1, (pos, S pos)) :: A')%list -> ts = (A' ++ (t, (i, j)) :: R)%list -> exists s1 s2, String c s = s1 +++ sign t +++ s2 /\ i = pos + String.length s1 /\ j = S i /\
          (t <> TEq -> forall u, pscan st start pos (s1 +++ sign t +++ u) = do r <- pscan LNone 0 j u; Ok (A ++ (t, (i, j)) :: r))).
        { intros A' X Y. apply (Later A'); [rewrite Pl, <- app_assoc; exact X|exact Y|]. rewrite E2, N. discriminate. }
        destruct Split as (l & [E0|(x & E0)] & _); rewrite E0 in H, Hit, Lt; cbn [app] in H, Hit, Lt.
        + right. destruct A as [|a A]; apply cons_inv in H as [X H]; [apply Hit; [reflexivity|exact X]|]. apply (Lt A); [rewrite X; reflexivity|exact H].
        + destruct A as [|a A]; apply cons_inv in H as [X H].
          * destruct (Ip x) as (I1 & I2 & I3); [rewrite E0; left; reflexivity|rewrite X; reflexivity|]. left. rewrite X in I3. cbn in I3. injection I3 as -> ->. auto.
          * right. destruct A as [|a' A]; apply cons_inv in H as [Y H]; [apply Hit; [rewrite X; reflexivity|exact Y]|]. apply (Lt A); [rewrite X, Y; reflexivity|exact H]. }
    destruct (step_sign st c p P) as [(E0 & S0)|[(t0 & p0 & (B1 & B2 & B3 & B4) & S0 & E0)|[(F & N)|(B & N & t0 & F & NS)]]].
    + apply (Here [] p S0 eq_refl); subst st; [rewrite place_none; reflexivity|reflexivity|cbn; lia|intros x []].
    + apply (Here [(t0, (start, pos))] p0 S0); subst p; cbn [fst snd].
      * reflexivity.
      * unfold place. rewrite B1. reflexivity.
      * destruct st; try discriminate B1; reflexivity.
      * cbn. lia.
      * intros x [<-|[]] X. cbn in X. subst t0. destruct Sg as [X|[X|X]]; [contradiction|contradiction|]. split; [exact (B4 X)|]. split; [exact X|reflexivity].
    + right. apply (Later A); [rewrite F; reflexivity|rewrite F in H; exact H|]. intro X. contradiction.
    + right. rewrite F in H. unfold place in H. rewrite B in H. replace (pending st) with false in H by (destruct st; try discriminate; reflexivity).
      cbn [map app] in H. destruct A as [|a A]; apply cons_inv in H as [X H]; [injection X as -> _ _; contradiction|].
      apply (Later A); [|exact H|rewrite N; discriminate]. rewrite F. unfold place. rewrite B. replace (pending st) with false by (destruct st; try discriminate; reflexivity). cbn. rewrite X. reflexivity.
Qed.
Lemma sign_top : forall s pos A t i j R, signed t -> pscan LNone 0 pos s = Ok (A ++ (t, (i, j)) :: R) ->
  exists s1 s2, s = s1 +++ sign t +++ s2 /\ i = pos + String.length s1 /\ j = S i /\
     (t <> TEq -> forall u, pscan LNone 0 pos (s1 +++ sign t +++ u) = do r <- pscan LNone 0 j u; Ok (A ++ (t, (i, j)) :: r)).
Proof.
  intros s pos A t i j R Sg H. apply sign_at in H as [(X & _)|H]; [discriminate X|exact H|exact Sg|discriminate].
Qed.

(* The tokens of an object are in braces. *)
Lemma object_last : forall b m ts, gobject b m ts -> exists us, ts = (us ++ [TRBrace])%list.
Proof.
  induction 1 as [b n|b n k s e ts K S G|b n k s e ts d m ts' K S G D G' (us & ->)].
  - exists (nls n). reflexivity.
  - exists (nls n ++ TIdent k :: s :: ts)%list. rewrite <- app_assoc. reflexivity.
  - exists (nls n ++ TIdent k :: s :: ts ++ d :: us)%list. rewrite <- app_assoc. cbn. rewrite <- app_assoc. reflexivity.
Qed.

Theorem attr_text_scan : forall s its k e q z, parse_file s = Ok its -> In (PAttr k e q z) its ->
  exists ts, scan LNone (slice s q z) = Ok ts /\ gexpr e ts.
Proof.
  intros s its k e q z H I. apply parse_file_inv in H as (ts & Hs & G & _).
  destruct (gitems_attr _ _ G _ _ _ _ I) as (A & p0 & p1 & M & B & -> & GE & -> & ->).
  destruct (exists_last (l := M)) as (M' & z & ->).
  { intros ->. apply gexpr_last in GE as (? & ? & E). destruct x; discriminate. }
  rewrite last_end_snoc.
  change (A ++ (TIdent k, p0) :: (TEq, p1) :: (M' ++ [z]) ++ B)%list
    with (A ++ [(TIdent k, p0)] ++ (TEq, p1) :: (M' ++ [z]) ++ B)%list in Hs.
  rewrite <- (app_assoc M'), app_assoc in Hs. apply text_upto in Hs. cbn [fst snd] in Hs. eauto.
Qed.

(* ----- comments ----- *)

Lemma pscan_spelled : forall s pos ts, pscan LNone 0 pos s = Ok ts -> spelled (map tok_of ts) s.
Proof. intros s pos ts H. apply scan_iff. rewrite (pscan_scan s LNone 0 pos), H. reflexivity. Qed.
Lemma gap_blank : forall g, gap g -> only blank_char g \/ exists b c, g = b +++ "/*" +++ c /\ only blank_char b.
Proof.
  induction 1 as [|c g C G IH|t g T G IH]; [left; apply only_nil| |].
  - destruct IH as [IH|(b & d & -> & B)]; [left; apply only_cons; auto|]. right. exists (String c b), d. split; [reflexivity|apply only_cons; auto].
  - right. exists "", (t +++ "*/" +++ g). split; [reflexivity|apply only_nil].
Qed.

(* Between the equals sign and the brace of an object there are blanks only. *)
Lemma brace_gap : forall s A k p0 p1 pl B, bare_values s ->
  pscan LNone 0 0 s = Ok (A ++ (TIdent k, p0) :: (TEq, p1) :: (TLBrace, pl) :: B) ->
  exists a b r, s = a +++ "=" +++ b +++ "{" +++ r /\ only blank_char b /\ snd p1 = S (String.length a) /\ fst pl = snd p1 + String.length b.
Proof.
  intros s A k p0 [i1 j1] [il jl] B V H. cbn [fst snd].
  change (A ++ (TIdent k, p0) :: (TEq, (i1, j1)) :: (TLBrace, (il, jl)) :: B)%list with (A ++ [(TIdent k, p0)] ++ (TEq, (i1, j1)) :: (TLBrace, (il, jl)) :: B)%list in H.
  rewrite app_assoc in H.
  destruct (sign_top _ _ _ _ _ _ _ (or_intror (or_intror eq_refl)) H) as (a & r & Es & Ei & Ej & _).
  destruct (pscan_prefix _ _ _ _ _ _ _ H) as [(_ & X & _)|(a' & r0 & Es' & Ea & Pa)]; [congruence|]. cbn [fst snd] in Ea.
  assert (a' = a) by (rewrite Es in Es'; apply append_same in Es' as [X _]; [symmetry; exact X|lia]).
  subst a'. destruct (pscan_suffix _ _ _ _ _ _ _ H) as (s1 & s2 & Es2 & L & Q). cbn [fst snd] in L, Q.
  assert (s2 = r).
  { rewrite Es in Es2. cbn [sign] in Es2. rewrite <- append_assoc in Es2. apply append_same in Es2 as [_ X]; [symmetry; exact X|].
    rewrite length_append. cbn [String.length]. lia. }
  subst s2. cbn [Nat.add] in *.
  destruct (sign_top _ _ [] _ _ _ _ (or_introl eq_refl) Q) as (g & r' & Er & Eil & Ejl & U). cbn [sign] in *.
  exists a, g, r'. split; [rewrite Es, Er; reflexivity|]. split; [|split; lia].
  destruct (pscan_prefix _ _ _ _ [] _ _ Q) as [(_ & X & _)|(g' & r1 & Er1 & Eg & Pg)]; [congruence|]. cbn [fst snd] in Eg.
  assert (g' = g) by (rewrite Er in Er1; apply append_same in Er1 as [X _]; [symmetry; exact X|lia]).
  subst g'. apply pscan_spelled in Pg. cbn [map] in Pg.
  assert (NC : forall b, gap b -> (exists c, g = b +++ c) -> only blank_char b).
  { intros b G (c0 & Eg0). destruct (gap_blank b G) as [O|(b0 & c & -> & O)]; [exact O|]. exfalso.
    apply (V a b0 (c +++ c0 +++ "{" +++ r') (map tok_of (A ++ [(TIdent k, p0)]))); [|exact O|apply (pscan_spelled a 0); exact Pa].
    rewrite Es, Er, Eg0. rewrite !append_assoc. reflexivity. }
  inversion Pg as [b G Eb|b c G C Eb|]; subst.
  - apply (NC g G). exists "". rewrite append_nil_r. reflexivity.
  - exfalso. assert (X := U ltac:(discriminate) ""). cbn [pscan bindr] in X. apply pscan_spelled in X. cbn [map app] in X. apply scan_iff in X.
    assert (Y : spelled [] ((b +++ c) +++ "{" +++ "")).
    { rewrite append_assoc. apply sp_comment; [exact G|]. destruct C as (o & d & O & -> & N). exists o, (d +++ "{"). split; [exact O|]. split; [rewrite append_assoc; reflexivity|].
      clear - N. induction d as [|x d IH]; [apply only_cons; split; [discriminate|apply only_nil]|]. apply only_cons in N. destruct N as [N1 N2]. apply only_cons. auto. }
    apply scan_iff in Y. rewrite Y in X. discriminate X.
Qed.

(* A block of a text whose values are bare has bare values. *)
Lemma bare_block : forall s its k ls o c b, bare_values s -> parse_file s = Ok its -> In (PBlock k ls o c b) its -> bare_values (slice s o c).
Proof.
  intros s its k ls o c b V H I. apply parse_file_inv in H as (ts & Hs & G & _).
  destruct (gitems_block _ _ G _ _ _ _ _ I) as (A & p1 & B & p2 & C & -> & _ & -> & ->).
  destruct p1 as [i1 j1].
  destruct (sign_top _ _ _ _ _ _ _ (or_introl eq_refl) Hs) as (s1 & s2 & Es & Ei & Ej & U). cbn [sign] in *.
  destruct (pscan_suffix _ _ _ _ _ _ _ Hs) as (s1' & s2' & Es2 & L & Q). cbn [fst snd] in L, Q.
  assert (s2' = s2).
  { rewrite Es in Es2. rewrite <- append_assoc in Es2. apply append_same in Es2 as [_ X]; [symmetry; exact X|].
    rewrite length_append. cbn [String.length]. lia. }
  subst s2'. apply pscan_prefix in Q as [(_ & X & _)|(s3 & s4 & E3 & L3 & Q)]; [congruence|]. cbn [fst snd] in *.
  assert (Sl : slice s j1 (fst p2) = s3).
  { rewrite Es2, E3. apply slice_app; cbn in L; lia. }
  rewrite Sl. intros a b0 c0 ts E O S.
  apply scan_iff in S. destruct (pscan_of_scan_at _ j1 _ S) as (pts & Pp).
  assert (X := U ltac:(discriminate) a). rewrite Pp in X. cbn [bindr] in X. apply pscan_spelled in X.
  apply (V (s1 +++ "{" +++ a) b0 (c0 +++ s4) _) in X; [exact X| |exact O].
  rewrite Es, E3, E, !append_assoc. reflexivity.
Qed.
Lemma bare_blocks : forall s its b, bare_values s -> parse_file s = Ok its -> In b (file_blocks its) -> bare_values (block_bytes s b).
Proof.
  intros s its b V H I. unfold file_blocks in I. apply in_flat_map in I as ([|k ls o c body] & J & I); [contradiction|].
  destruct I as [<-|[]]. exact (bare_block _ _ _ _ _ _ _ V H J).
Qed.

(* ----- objects ----- *)

Lemma trim_left_blank : forall b s, only blank_char b -> trim_left (b +++ s) = trim_left s.
Proof.
  induction b as [|c b IH]; intros s H; [reflexivity|]. apply only_cons in H. destruct H as [C H]. cbn [String.append trim_left].
  assert (E : space_char c = true) by (destruct C as [->| ->]; reflexivity). rewrite E. apply IH. exact H.
Qed.
Lemma trim_right_last : forall s c, space_char c = false -> trim_right (s +++ String c "") = s +++ String c "".
Proof.
  induction s as [|x s IH]; intros c C; cbn [String.append trim_right]; [rewrite C; reflexivity|]. rewrite IH by exact C. destruct s; reflexivity.
Qed.
Lemma last_char_last : forall s c, last_char (s +++ String c "") = Some c.
Proof. induction s as [|x s IH]; intro c; [reflexivity|]. cbn [String.append last_char]. rewrite IH. destruct s; reflexivity. Qed.

Theorem decode_map_attr : forall s its k m q z, bare_values s -> parse_file s = Ok its -> In (PAttr k (EObj m) q z) its ->
  decode_map (slice s q z) = expr_native (EObj m).
Proof.
  intros s its k m q z V H I. pose proof (attr_text_parses _ _ _ _ _ _ H I) as P.
  apply parse_file_inv in H as (ts & Hs & G & _).
  destruct (gitems_attr _ _ G _ _ _ _ I) as (A & p0 & p1 & M & B & -> & GE & Eq & Ez).
  inversion GE as [| | | | |x Ek| | |m' us GO]; [unfold keyword in Ek; repeat match type of Ek with (if ?b then _ else _) = _ => destruct b end; discriminate|]. subst m'.
  destruct (object_last _ _ _ GO) as (vs & Ev).
  destruct M as [|[tl pl] M]; [discriminate|]. cbn [map tok_of fst] in *. assert (tl = TLBrace) by congruence. subst tl.
  assert (EM : map tok_of M = (vs ++ [TRBrace])%list) by congruence.
  destruct (exists_last (l := M)) as (M' & [tr pr] & ->). { intros ->. destruct vs; discriminate EM. }
  rewrite map_app in EM. cbn [map tok_of fst] in EM. apply app_inj_tail in EM as (_ & ->).
  cbn [app] in Hs. destruct (brace_gap _ _ _ _ _ _ _ V Hs) as (a & b & r & Es & O & Ea & Eb).
  destruct pl as [il jl], pr as [ir jr]. cbn [fst snd] in *.
  assert (Ez' : z = jr).
  { rewrite Ez. change ((TLBrace, (il, jl)) :: M' ++ [(TRBrace, (ir, jr))])%list with (((TLBrace, (il, jl)) :: M') ++ [(TRBrace, (ir, jr))])%list. rewrite last_end_snoc. reflexivity. }
  clear Ez. subst z.
  assert (Hr : pscan LNone 0 0 s = Ok ((A ++ (TIdent k, p0) :: (TEq, p1) :: (TLBrace, (il, jl)) :: M') ++ (TRBrace, (ir, jr)) :: B)).
  { rewrite Hs. f_equal. repeat (rewrite <- app_assoc; cbn [app]). reflexivity. }
  destruct (sign_top _ _ _ _ _ _ _ (or_intror (or_introl eq_refl)) Hr) as (s1 & s2 & Es1 & Ei & Ej & _). cbn [sign Nat.add] in *.
  (* the closing brace is behind the opening one *)
  assert (Ql : exists mid, s1 = a +++ "=" +++ b +++ "{" +++ mid).
  { change (A ++ (TIdent k, p0) :: (TEq, p1) :: (TLBrace, (il, jl)) :: M')%list with (A ++ [(TIdent k, p0); (TEq, p1)] ++ (TLBrace, (il, jl)) :: M')%list in Hr.
    rewrite app_assoc in Hr. rewrite <- (app_assoc (A ++ _)) in Hr. cbn [app] in Hr.
    destruct (pscan_suffix _ _ _ _ _ _ _ Hr) as (s3 & s4 & E3 & L3 & Q3). cbn [fst snd Nat.add] in L3, Q3.
    destruct (sign_top _ _ _ _ _ _ _ (or_intror (or_introl eq_refl)) Q3) as (s5 & s6 & E5 & Ei5 & _ & _).
    assert (Lj : jl = S il).
    { destruct (sign_top _ _ _ _ _ _ _ (or_introl eq_refl) Hr) as (? & ? & _ & _ & X & _). exact X. }
    exists s5.
    assert (L3' : String.length s3 = String.length (a +++ "=" +++ b +++ "{")).
    { rewrite !length_append. cbn [String.length]. lia. }
    assert (s3 = a +++ "=" +++ b +++ "{").
    { rewrite Es in E3. replace (a +++ "=" +++ b +++ "{" +++ r) with ((a +++ "=" +++ b +++ "{") +++ r) in E3 by (rewrite !append_assoc; reflexivity).
      apply append_same in E3 as [X _]; [symmetry; exact X|symmetry; exact L3']. }
    assert (X : s1 = s3 +++ s5).
    { rewrite Es1, E5 in E3. rewrite <- (append_assoc s3) in E3. apply append_same in E3 as [X _]; [exact X|]. rewrite !length_append. lia. }
    rewrite X, H. rewrite !append_assoc. reflexivity. }
  destruct Ql as (mid & ->).
  assert (Sl : slice s q jr = b +++ "{" +++ mid +++ "}").
  { rewrite Es1. replace ((a +++ "=" +++ b +++ "{" +++ mid) +++ "}" +++ s2) with ((a +++ "=") +++ (b +++ "{" +++ mid +++ "}") +++ s2) by (rewrite !append_assoc; reflexivity).
    rewrite !length_append in Ei. cbn [String.length] in Ei. apply slice_app; rewrite !length_append; cbn [String.length]; lia. }
  rewrite Sl in P |- *.
  assert (T : trim (b +++ "{" +++ mid +++ "}") = String "{" mid +++ "}").
  { unfold trim. rewrite trim_left_blank by exact O. apply (trim_right_last (String "{" mid)). reflexivity. }
  assert (L := last_char_last (String "{" mid) "}"). cbn [String.append] in T, L |- *.
  unfold decode_map. rewrite T, L. cbn [Ascii.eqb Bool.eqb andb String.append] in P |- *. rewrite P. reflexivity.
Qed.
Theorem decode_slice_attr : forall s its k l q z, parse_file s = Ok its -> In (PAttr k (ETuple l) q z) its ->
  decode_slice (slice s q z) = expr_native (ETuple l).
Proof.
  intros s its k l q z H I. unfold decode_slice. rewrite (attr_text_parses _ _ _ _ _ _ H I). reflexivity.
Qed.
