(* Proofs: the parser reads tokens as the body they are, and no other tokens. *)

From Verif Require PlainScan.
From Verif Require Import Base CtyModel CtySpec HclModel HclSpec HclParse HclGrammar HclLex.
From Coq Require Import Lia.
Local Open Scope nat_scope.

Scheme g_expr_ind2 := Minimality for g_expr Sort Prop
  with g_elems_ind2 := Minimality for g_elems Sort Prop
  with g_entries_ind2 := Minimality for g_entries Sort Prop.
Combined Scheme g_ind from g_expr_ind2, g_elems_ind2, g_entries_ind2.
Scheme g_body_ind2 := Minimality for g_body Sort Prop
  with g_item_ind2 := Minimality for g_item Sort Prop.
Combined Scheme g_body_mut from g_body_ind2, g_item_ind2.

(* ----- newlines ----- *)

Lemma newlines_nil : newlines [].
Proof. intros t []. Qed.
Lemma newlines_cons : forall t ns, newlines (t :: ns) <-> t = TNl /\ newlines ns.
Proof. intros t ns. split; [intro H; split; [apply H; left; reflexivity|intros u U; apply H; right; exact U]|intros [-> H] u [<-|U]; [reflexivity|exact (H u U)]]. Qed.
Lemma skip_split : forall ts, exists ns, newlines ns /\ ts = (ns ++ skip_nl ts)%list.
Proof.
  induction ts as [|t ts (ns & N & E)]; [exists []; split; [exact newlines_nil|reflexivity]|].
  destruct t; try (exists []; split; [exact newlines_nil|reflexivity]).
  exists (TNl :: ns). split; [apply newlines_cons; auto|]. cbn [skip_nl app]. congruence.
Qed.
Lemma skip_app : forall ns r, newlines ns -> skip_nl (ns ++ r) = skip_nl r.
Proof. induction ns as [|t ns IH]; intros r N; [reflexivity|]. apply newlines_cons in N. destruct N as [-> N]. cbn [app skip_nl]. apply IH. exact N. Qed.

(* ----- what is read is in the grammar ----- *)

Lemma keyword_g : forall x, g_expr [TIdent x] (keyword x).
Proof.
  intro x. unfold keyword. destruct (String.eqb_spec x "true") as [->|A]; [constructor|]. destruct (String.eqb_spec x "false") as [->|B]; [constructor|].
  destruct (String.eqb_spec x "null") as [->|C]; [constructor|]. apply g_var. intros [H|[H|H]]; contradiction.
Qed.
Lemma keyword_var : forall x, ~ reserved x -> keyword x = EVar x.
Proof.
  intros x H. unfold keyword. destruct (String.eqb_spec x "true") as [->|A]; [destruct H; left; reflexivity|]. destruct (String.eqb_spec x "false") as [->|B]; [destruct H; right; left; reflexivity|].
  destruct (String.eqb_spec x "null") as [->|C]; [destruct H; right; right; reflexivity|reflexivity].
Qed.

Lemma parse_sound : forall n,
  (forall ts e rest, pexpr n ts = Ok (e, rest) -> exists u, ts = (u ++ rest)%list /\ g_expr u e)
  /\ (forall ts l rest, ptuple n ts = Ok (l, rest) -> exists u, ts = (u ++ TRBrack :: rest)%list /\ g_elems u l)
  /\ (forall first ts m rest, pobject n first ts = Ok (m, rest) -> exists u, ts = (u ++ TRBrace :: rest)%list /\ g_entries first u m).
Proof.
  induction n as [|n (IHe & IHt & IHo)]; [repeat split; intros; discriminate|]. repeat split.
  - intros ts e rest H. cbn [pexpr] in H. destruct ts as [|[] ts]; try discriminate H.
    + assert (K : ts = rest -> Ok (A := expr * list token) (keyword s, ts) = Ok (e, rest) -> exists u, (TIdent s :: ts) = (u ++ rest)%list /\ g_expr u e).
      { intros <- X. exists [TIdent s]. split; [reflexivity|]. replace e with (keyword s) by congruence. apply keyword_g. }
      destruct ts as [|[] ts]; try (apply K; [congruence|exact H]).
      destruct ts as [|[] ts]; try discriminate H. exists [TIdent s; TLParen; TRParen]. replace e with (ECall s) by congruence. split; [cbn [app]; congruence|constructor].
    + exists [TNum z]. replace e with (ENum z) by congruence. split; [cbn [app]; congruence|constructor].
    + exists [TDec m k]. replace e with (EDec m k) by congruence. split; [cbn [app]; congruence|constructor].
    + exists [TStr s]. replace e with (EStr s) by congruence. split; [cbn [app]; congruence|constructor].
    + apply bindr_Ok in H. destruct H as ((m & r) & P & H). destruct (IHo _ _ _ _ P) as (u & -> & G). exists (TLBrace :: u ++ [TRBrace]).
      cbn [fst snd] in H. replace e with (EObj m) by congruence. replace rest with r by congruence. split; [cbn [app]; rewrite <- app_assoc; reflexivity|constructor; exact G].
    + apply bindr_Ok in H. destruct H as ((m & r) & P & H). destruct (IHt _ _ _ P) as (u & -> & G). exists (TLBrack :: u ++ [TRBrack]).
      cbn [fst snd] in H. replace e with (ETuple m) by congruence. replace rest with r by congruence. split; [cbn [app]; rewrite <- app_assoc; reflexivity|constructor; exact G].
    + destruct ts as [|[] ts]; try discriminate H.
      * exists [TMinus; TNum z]. replace e with (ENum (- z)) by congruence. split; [cbn [app]; congruence|constructor].
      * exists [TMinus; TDec m k]. replace e with (EDec (- m) k) by congruence. split; [cbn [app]; congruence|constructor].
  - intros ts l rest H. cbn [ptuple] in H. destruct (skip_split ts) as (ns & N & E). rewrite E.
    destruct (skip_nl ts) as [|t ts'] eqn:T; [destruct n; discriminate H|].
    assert (K : (do p <- pexpr n (t :: ts'); match skip_nl (snd p) with TRBrack :: r => Ok ([fst p], r) | TComma :: r => do q <- ptuple n r; Ok (fst p :: fst q, snd q)
        | _ => Err "syntax: missing item separator" end) = Ok (l, rest) -> exists u, (ns ++ t :: ts' = u ++ TRBrack :: rest)%list /\ g_elems u l).
    { clear H. intro H. apply bindr_Ok in H. destruct H as ((e & r) & P & H). destruct (IHe _ _ _ P) as (u & U & G). rewrite U. clear U P. cbn [fst snd] in H.
      destruct (skip_split r) as (ns' & N' & E'). destruct (skip_nl r) as [|[] r']; try discriminate H.
      - exists (ns ++ u ++ ns')%list. replace l with [e] by congruence. replace rest with r' by congruence. split; [rewrite E', !app_assoc; reflexivity|constructor; assumption].
      - apply bindr_Ok in H. destruct H as ((l' & r2) & P & H). cbn [fst snd] in H. destruct (IHt _ _ _ P) as (u' & U' & G'). exists (ns ++ u ++ ns' ++ TComma :: u')%list.
        replace l with (e :: l') by congruence. replace rest with r2 by congruence. split; [rewrite E', U', <- !app_assoc; cbn [app]; rewrite <- ?app_assoc; reflexivity|constructor; assumption]. }
    destruct t; try (apply K; exact H). exists ns. replace l with (@nil expr) by congruence. replace rest with ts' by congruence. split; [reflexivity|constructor; exact N].
  - intros first ts m rest H. cbn [pobject] in H. destruct (skip_split ts) as (ns & N & E). rewrite E.
    destruct (skip_nl ts) as [|t ts']; [discriminate H|]. destruct t; try discriminate H.
    + destruct (first && String.eqb s "for") eqn:F; [destruct ts' as [|[] ?]; discriminate H|].
      assert (F' : first = true -> s <> "for") by (intros -> ->; discriminate F).
      assert (K : forall eq r1, eq = TEq \/ eq = TColon -> ts' = eq :: r1 -> (do p <- pexpr n r1;
        match snd p with TRBrace :: r2 => Ok ([(s, fst p)], r2) | TNl :: r2 | TComma :: r2 => do q <- pobject n false r2; Ok ((s, fst p) :: fst q, snd q)
        | _ => Err "syntax: missing attribute separator" end) = Ok (m, rest) -> exists u, (ns ++ TIdent s :: ts' = u ++ TRBrace :: rest)%list /\ g_entries first u m).
      { clear H. intros eq r1 Q -> H. apply bindr_Ok in H. destruct H as ((e & r) & P & H). destruct (IHe _ _ _ P) as (u & -> & G). clear P. cbn [fst snd] in H.
        assert (K2 : forall sep r2, sep = TNl \/ sep = TComma -> r = sep :: r2 -> (do q <- pobject n false r2; Ok ((s, e) :: fst q, snd q)) = Ok (m, rest) ->
           exists u', (ns ++ TIdent s :: eq :: u ++ r = u' ++ TRBrace :: rest)%list /\ g_entries first u' m).
        { clear H. intros sep r2 S -> H. apply bindr_Ok in H. destruct H as ((m' & r3) & P & H). cbn [fst snd] in H. destruct (IHo _ _ _ _ P) as (u' & -> & G').
          exists (ns ++ TIdent s :: eq :: u ++ sep :: u')%list. replace m with ((s, e) :: m') by congruence. replace rest with r3 by congruence.
          split; [rewrite <- !app_assoc; cbn [app]; rewrite <- !app_assoc; reflexivity|apply gn_more; assumption]. }
        destruct r as [|[] r]; try discriminate H.
        - exists (ns ++ TIdent s :: eq :: u)%list. replace m with [(s, e)] by congruence. replace rest with r by congruence.
          split; [rewrite <- !app_assoc; reflexivity|apply gn_last; assumption].
        - exact (K2 TComma r (or_intror eq_refl) eq_refl H).
        - exact (K2 TNl r (or_introl eq_refl) eq_refl H). }
      destruct ts' as [|[] ts']; try discriminate H; [exact (K TEq ts' (or_introl eq_refl) eq_refl H)|exact (K TColon ts' (or_intror eq_refl) eq_refl H)].
    + exists ns. replace m with (@nil (string * expr)) by congruence. replace rest with ts' by congruence. split; [reflexivity|constructor; exact N].
Qed.

Lemma labels_sound : forall ts ls rest, plabels ts = Ok (ls, rest) -> exists u, ts = (u ++ TLBrace :: rest)%list /\ g_labels u ls.
Proof.
  induction ts as [|t ts IH]; intros ls rest H; [discriminate H|]. destruct t; cbn [plabels] in H; try discriminate H.
  - apply bindr_Ok in H. destruct H as ((l & r) & P & H). cbn [fst snd] in H. destruct (IH _ _ P) as (u & -> & G). exists (TIdent s :: u).
    replace ls with (s :: l) by congruence. replace rest with r by congruence. split; [reflexivity|constructor; exact G].
  - apply bindr_Ok in H. destruct H as ((l & r) & P & H). cbn [fst snd] in H. destruct (IH _ _ P) as (u & -> & G). exists (TStr s :: u).
    replace ls with (s :: l) by congruence. replace rest with r by congruence. split; [reflexivity|constructor; exact G].
  - exists []. replace ls with (@nil string) by congruence. replace rest with ts by congruence. split; [reflexivity|constructor].
Qed.
Lemma labels_complete : forall u ls rest, g_labels u ls -> plabels (u ++ TLBrace :: rest) = Ok (ls, rest).
Proof. intros u ls rest H. induction H as [|s ts ls H IH|s ts ls H IH]; cbn [app plabels]; [reflexivity|rewrite IH; reflexivity..]. Qed.

Lemma attr_names_In : forall k its, In k (attr_names its) <-> exists e, In (IAttr k e) its.
Proof.
  intros k its. unfold attr_names. rewrite in_flat_map. split.
  - intros (i & I & J). destruct i as [k' e|]; [destruct J as [<-|[]]; exists e; exact I|destruct J].
  - intros (e & I). exists (IAttr k e). split; [exact I|left; reflexivity].
Qed.
Lemma fresh_attr : forall k e its, fresh (IAttr k e) its <-> ~ In k (attr_names its).
Proof.
  intros k e its. rewrite attr_names_In. split.
  - intros H (e' & I). exact (H k e e' eq_refl I).
  - intros H k' e1 e2 X I. injection X as <- _. apply H. exists e2. exact I.
Qed.
Lemma fresh_block : forall k ls b its, fresh (IBlock k ls b) its.
Proof. intros k ls b its k' e e' H. discriminate H. Qed.

Definition body_close (nested : bool) (rest : list token) (u : list token) : list token := if nested then u ++ TRBrace :: rest else u.
Lemma close_more : forall nested rest ts u, body_close nested rest (ts ++ TNl :: u) = (ts ++ TNl :: body_close nested rest u)%list.
Proof. intros [] rest ts u; cbn [body_close]; [rewrite <- app_assoc|]; reflexivity. Qed.

Lemma body_sound : forall n nested ts its rest, pbody n nested ts = Ok (its, rest) ->
  exists u, ts = body_close nested rest u /\ (nested = false -> rest = []) /\ g_body nested u its.
Proof.
  induction n as [|n IH]; intros nested ts its rest H; [discriminate H|]. cbn [pbody] in H. destruct ts as [|t ts].
  { destruct nested; [discriminate H|]. exists []. replace its with (@nil item) by congruence. replace rest with (@nil token) by congruence. repeat split. constructor. }
  destruct t; try discriminate H.
  - assert (K : (do p <- plabels ts;
        do b <- block_body (pbody n true) n (snd p);
        match snd b with
        | TNl :: r1 => do q <- pbody n nested r1; Ok (IBlock s (fst p) (fst b) :: fst q, snd q)
        | [] => if nested then Err "syntax: unclosed block" else Ok ([IBlock s (fst p) (fst b)], [])
        | _ => Err "syntax: missing newline after block definition"
        end) = Ok (its, rest) -> exists u, TIdent s :: ts = body_close nested rest u /\ (nested = false -> rest = []) /\ g_body nested u its).
    { clear H. intro H. apply bindr_Ok in H. destruct H as ((ls & r) & P & H). cbn [fst snd] in H. destruct (labels_sound _ _ _ P) as (lt & -> & L). clear P.
      apply bindr_Ok in H. destruct H as ((b & r0) & P & H). cbn [fst snd] in H.
      assert (I : exists v, r = (v ++ r0)%list /\ g_item (TIdent s :: lt ++ TLBrace :: v) (IBlock s ls b)).
      { apply block_body_inv in P as [(O & P)|(a & e & r' & -> & P & ->)].
        - destruct (IH _ _ _ _ P) as (u & U & _ & G). cbn [body_close] in U. exists (u ++ [TRBrace])%list. split; [rewrite <- app_assoc; exact U|].
          apply gim_block; [exact L|exact G|]. destruct u as [|t u]; [left; reflexivity|right]. exists u. subst r. cbn [app opens_body] in O.
          destruct t; try contradiction O; [|reflexivity]. exfalso. clear - G. inversion G; subst.
          match goal with H : g_item _ _ |- _ => inversion H; subst; match goal with H : _ ++ _ = _ |- _ => discriminate H | _ => idtac end end.
        - destruct (proj1 (parse_sound n) _ _ _ P) as (u & -> & G). exists (TIdent a :: TEq :: u ++ [TRBrace])%list.
          split; [cbn [app]; rewrite <- app_assoc; reflexivity|]. apply gim_line; assumption. }
      destruct I as (v & -> & I).
      destruct r0 as [|[] r1]; try discriminate H.
      - destruct nested; [discriminate H|]. replace its with [IBlock s ls b] by congruence. replace rest with (@nil token) by congruence. exists (TIdent s :: lt ++ TLBrace :: v)%list. cbn [body_close].
        rewrite app_nil_r. split; [reflexivity|]. split; [reflexivity|]. apply gb_last. exact I.
      - apply bindr_Ok in H. destruct H as ((q & r2) & P2 & H). cbn [fst snd] in H. destruct (IH _ _ _ _ P2) as (u2 & U2 & N2 & G2).
        replace its with (IBlock s ls b :: q) by congruence. replace rest with r2 by congruence. exists ((TIdent s :: lt ++ TLBrace :: v) ++ TNl :: u2)%list.
        split; [rewrite close_more, <- U2; cbn [app]; rewrite <- !app_assoc; reflexivity|]. split; [exact N2|]. apply gb_more; [exact I|exact G2|apply fresh_block]. }
    destruct ts as [|[] ts]; try (apply K; exact H). clear K.
    apply bindr_Ok in H. destruct H as ((e & r) & P & H). cbn [fst snd] in H. destruct (proj1 (parse_sound n) _ _ _ P) as (u & -> & G). destruct r as [|[] r]; try discriminate H.
    + destruct nested; [discriminate H|]. replace its with [IAttr s e] by congruence. replace rest with (@nil token) by congruence. exists (TIdent s :: TEq :: u). rewrite app_nil_r. repeat split. apply gb_last. constructor. exact G.
    + apply bindr_Ok in H. destruct H as ((q & r2) & P2 & H). cbn [fst snd] in H. destruct (IH _ _ _ _ P2) as (u2 & -> & N2 & G2).
      destruct (in_dec string_dec s (attr_names q)) as [I|I]; [discriminate H|]. replace its with (IAttr s e :: q) by congruence. replace rest with r2 by congruence.
      exists ((TIdent s :: TEq :: u) ++ TNl :: u2)%list. split; [rewrite close_more; reflexivity|]. split; [exact N2|]. apply gb_more; [constructor; exact G|exact G2|apply fresh_attr; exact I].
  - destruct nested; [|discriminate H]. exists []. replace its with (@nil item) by congruence. replace rest with ts by congruence. repeat split; [discriminate|constructor].
  - destruct (IH _ _ _ _ H) as (u & -> & N & G). exists (TNl :: u). split; [destruct nested; reflexivity|]. split; [exact N|constructor; exact G].
Qed.

(* ----- what is in the grammar is read ----- *)

Lemma g_expr_head : forall ts e, g_expr ts e -> exists t r, ts = t :: r /\ t <> TNl /\ t <> TRBrack /\ t <> TRBrace /\ t <> TComma /\ t <> TLParen.
Proof. intros ts e H. destruct H; do 2 eexists; split; try reflexivity; repeat split; discriminate. Qed.
Lemma no_paren_nl : forall ns r, newlines ns -> no_paren r -> no_paren (ns ++ r).
Proof. intros [|t ns] r N P; [exact P|]. apply newlines_cons in N. destruct N as [-> _]. exact Logic.I. Qed.

Lemma parse_complete :
  (forall ts e, g_expr ts e -> forall rest n, no_paren rest -> 2 * List.length ts <= n -> pexpr n (ts ++ rest) = Ok (e, rest))
  /\ (forall ts l, g_elems ts l -> forall rest n, 2 * List.length ts + 2 <= n -> ptuple n (ts ++ TRBrack :: rest) = Ok (l, rest))
  /\ (forall first ts m, g_entries first ts m -> forall rest n, 2 * List.length ts + 2 <= n -> pobject n first (ts ++ TRBrace :: rest) = Ok (m, rest)).
Proof.
  assert (T : forall n ts e ns r x, pexpr n (ts ++ r) = Ok (e, r) -> g_expr ts e -> newlines ns ->
     match skip_nl r with TRBrack :: r' => Ok ([e], r') | TComma :: r' => do q <- ptuple n r'; Ok (e :: fst q, snd q) | _ => Err "syntax: missing item separator" end = Ok x ->
     ptuple (S n) (ns ++ ts ++ r) = Ok x).
  { intros n ts e ns r x P G N X. cbn [ptuple]. rewrite skip_app by exact N. destruct (g_expr_head ts e G) as (t & ts' & -> & H1 & H2 & _). cbn [app] in *.
    destruct t; try congruence; cbn [skip_nl]; rewrite P; cbn [bindr fst snd]; exact X. }
  assert (O : forall n first ns k eq ts e r x, pexpr n (ts ++ r) = Ok (e, r) -> newlines ns -> (first = true -> k <> "for") -> eq = TEq \/ eq = TColon ->
     match r with TRBrace :: r2 => Ok ([(k, e)], r2) | TNl :: r2 | TComma :: r2 => do q <- pobject n false r2; Ok ((k, e) :: fst q, snd q)
        | _ => Err "syntax: missing attribute separator" end = Ok x ->
     pobject (S n) first (ns ++ TIdent k :: eq :: ts ++ r) = Ok x).
  { intros n first ns k eq ts e r x P N F Q X. cbn [pobject]. rewrite skip_app by exact N. cbn [skip_nl].
    assert (F' : first && String.eqb k "for" = false) by (destruct first; [|reflexivity]; apply String.eqb_neq; apply F; reflexivity).
    rewrite F'. destruct Q as [->| ->]; rewrite P; cbn [bindr fst snd]; exact X. }
  apply g_ind.
  - intros z rest [|n] R L; [cbn in L; lia|]. reflexivity.
  - intros z rest [|n] R L; [cbn in L; lia|]. reflexivity.
  - intros m k rest [|n] R L; [cbn in L; lia|]. reflexivity.
  - intros m k rest [|n] R L; [cbn in L; lia|]. reflexivity.
  - intros s rest [|n] R L; [cbn in L; lia|]. reflexivity.
  - intros rest [|n] R L; [cbn in L; lia|]. destruct rest as [|[] rest]; try contradiction; reflexivity.
  - intros rest [|n] R L; [cbn in L; lia|]. destruct rest as [|[] rest]; try contradiction; reflexivity.
  - intros rest [|n] R L; [cbn in L; lia|]. destruct rest as [|[] rest]; try contradiction; reflexivity.
  - intros x X rest [|n] R L; [cbn in L; lia|]. rewrite <- (keyword_var x X). destruct rest as [|[] rest]; try contradiction; reflexivity.
  - intros f rest [|n] R L; [cbn in L; lia|]. reflexivity.
  - intros ts l _ IH rest [|n] R L; [cbn in L; lia|]. cbn [List.length] in L. rewrite app_length in L. cbn [List.length] in L. cbn [app pexpr]. rewrite <- app_assoc. cbn [app].
    rewrite IH by lia. reflexivity.
  - intros ts l _ IH rest [|n] R L; [cbn in L; lia|]. cbn [List.length] in L. rewrite app_length in L. cbn [List.length] in L. cbn [app pexpr]. rewrite <- app_assoc. cbn [app].
    rewrite IH by lia. reflexivity.
  - intros ns N rest [|n] L; [lia|]. cbn [ptuple]. rewrite skip_app by exact N. reflexivity.
  - intros ns ts e ns' N G IH N' rest [|n] L; [lia|]. rewrite !app_length in L. rewrite <- !app_assoc. apply (T n ts e); [|exact G|exact N|].
    + apply IH; [apply no_paren_nl; [exact N'|exact Logic.I]|lia].
    + rewrite skip_app by exact N'. reflexivity.
  - intros ns ts e ns' r l N G IH N' _ IH' rest [|n] L; [lia|]. rewrite !app_length in L. cbn [List.length] in L. rewrite <- !app_assoc. cbn [app]. apply (T n ts e); [|exact G|exact N|].
    + apply IH; [apply no_paren_nl; [exact N'|exact Logic.I]|lia].
    + rewrite skip_app by exact N'. cbn [skip_nl]. rewrite IH' by lia. reflexivity.
  - intros first ns N rest [|n] L; [lia|]. cbn [pobject]. rewrite skip_app by exact N. reflexivity.
  - intros first ns k eq ts e N F Q G IH rest [|n] L; [lia|]. rewrite !app_length in L. cbn [List.length] in L. rewrite <- !app_assoc. cbn [app]. apply (O n first ns k eq ts e); try assumption; [|reflexivity].
    apply IH; [exact Logic.I|lia].
  - intros first ns k eq ts e sep r m N F Q G IH S _ IH' rest [|n] L; [lia|]. rewrite !app_length in L. cbn [List.length] in L. rewrite !app_length in L. cbn [List.length] in L.
    rewrite <- !app_assoc. cbn [app]. rewrite <- !app_assoc. cbn [app]. apply (O n first ns k eq ts e); try assumption.
    + apply IH; [destruct S as [->| ->]; exact Logic.I|lia].
    + destruct S as [->| ->]; rewrite IH' by lia; reflexivity.
Qed.

Lemma body_complete :
  (forall nested u its, g_body nested u its -> forall rest n, (nested = false -> rest = []) -> 2 * List.length u + 1 <= n ->
     pbody n nested (body_close nested rest u) = Ok (its, rest))
  /\ (forall u i, g_item u i ->
      (forall n, 2 * List.length u + 1 <= n -> pbody n false u = Ok ([i], []))
      /\ forall nested its r rest n bound, fresh i its -> (forall n', bound <= n' -> pbody n' nested r = Ok (its, rest)) ->
         2 * List.length u + bound + 1 <= n -> pbody n nested (u ++ TNl :: r) = Ok (i :: its, rest)).
Proof.
  assert (B : forall k lt ls v b, g_labels lt ls -> (forall n r, 2 * List.length v + 1 <= n -> block_body (pbody n true) n (v ++ r) = Ok (b, r)) ->
      (forall n, 2 * List.length (TIdent k :: lt ++ TLBrace :: v) + 1 <= n -> pbody n false (TIdent k :: lt ++ TLBrace :: v) = Ok ([IBlock k ls b], []))
      /\ forall nested its r rest n bound, fresh (IBlock k ls b) its -> (forall n', bound <= n' -> pbody n' nested r = Ok (its, rest)) ->
         2 * List.length (TIdent k :: lt ++ TLBrace :: v) + bound + 1 <= n -> pbody n nested ((TIdent k :: lt ++ TLBrace :: v) ++ TNl :: r) = Ok (IBlock k ls b :: its, rest)).
  { intros k lt ls v b Hl I.
    assert (K : forall n nested r, 2 * List.length (TIdent k :: lt ++ TLBrace :: v) + 1 <= S n ->
        pbody (S n) nested (TIdent k :: lt ++ TLBrace :: v ++ r) =
          match r with
          | TNl :: r1 => do q <- pbody n nested r1; Ok (IBlock k ls b :: fst q, snd q)
          | [] => if nested then Err "syntax: unclosed block" else Ok ([IBlock k ls b], [])
          | _ => Err "syntax: missing newline after block definition"
          end).
    { intros n nested r L. cbn [List.length] in L. rewrite app_length in L. cbn [List.length] in L.
      assert (P := labels_complete lt ls (v ++ r) Hl). specialize (I n r ltac:(lia)). cbn [pbody].
      assert (D : match (lt ++ TLBrace :: v ++ r)%list with TEq :: _ => True | _ => False end -> False) by (intro Z; destruct Hl; contradiction).
      destruct (lt ++ TLBrace :: v ++ r)%list as [|[] w] eqn:W; try (exfalso; apply D; exact Logic.I);
        rewrite P; cbn [bindr fst snd]; rewrite I; reflexivity. }
    split.
    - intros [|n] L; [lia|]. rewrite <- (app_nil_r v), K by exact L. reflexivity.
    - intros nested its r rest [|n] bound F Bd L; [lia|]. cbn [app]. rewrite <- app_assoc. cbn [app].
      rewrite K by lia. cbn [List.length] in L. rewrite Bd by lia. reflexivity. }
  apply g_body_mut.
  - intros nested rest [|n] R L; [lia|]. destruct nested; [reflexivity|]. rewrite (R eq_refl). reflexivity.
  - intros nested ts its _ IH rest [|n] R L; [lia|]. cbn [List.length] in L. rewrite <- (IH rest n R) by lia. destruct nested; reflexivity.
  - intros ts i _ [IH _] rest n R L. cbn [body_close]. rewrite (R eq_refl). apply IH. exact L.
  - intros nested ts i r its _ [_ IHi] _ IHb F rest n R L. rewrite app_length in L. cbn [List.length] in L. rewrite close_more.
    apply (IHi nested its _ rest n (2 * List.length r + 1) F); [intros n' L'; apply IHb; assumption|lia].
  - intros k ts e G. split.
    + intros [|n] L; [lia|]. cbn [List.length] in L. cbn [pbody]. rewrite <- (app_nil_r ts). rewrite (proj1 parse_complete ts e G [] n Logic.I) by lia. reflexivity.
    + intros nested its r rest [|n] bound F Bd L; [lia|]. cbn [List.length] in L. cbn [app pbody]. rewrite (proj1 parse_complete ts e G (TNl :: r) n Logic.I) by lia. cbn [bindr fst snd].
      rewrite Bd by lia. cbn [bindr fst snd]. apply fresh_attr in F. destruct (in_dec string_dec k (attr_names its)); [contradiction|reflexivity].
  - intros k lt ls ts b Hl G IH Hd.
    replace (TIdent k :: lt ++ TLBrace :: ts ++ [TRBrace])%list with (TIdent k :: lt ++ TLBrace :: (ts ++ [TRBrace]))%list by reflexivity.
    apply B; [exact Hl|]. intros n r L. rewrite app_length in L. cbn [List.length] in L. rewrite <- app_assoc. rewrite block_body_lines by (destruct Hd as [->|(r' & ->)]; exact Logic.I).
    apply (IH r n); [discriminate|lia].
  - intros k lt ls a ts e Hl G. apply B; [exact Hl|]. intros n r L. cbn [List.length] in L. rewrite app_length in L. cbn [List.length] in L.
    cbn [app block_body one_line]. rewrite <- app_assoc. rewrite (proj1 parse_complete ts e G) by (try exact Logic.I; cbn; lia). reflexivity.
Qed.

Theorem document_iff : forall s its, parse_config s = Ok its <-> hcl_document s its.
Proof.
  intros s its. unfold parse_config, hcl_document. split.
  - intro H. apply bindr_Ok in H. destruct H as (ts & S & H). apply bindr_Ok in H. destruct H as ((i & r) & P & H). cbn [fst] in H. injection H as ->.
    destruct (body_sound _ _ _ _ _ P) as (u & U & _ & G). cbn [body_close] in U. subst u. exists ts. split; [apply scan_iff; exact S|exact G].
  - intros (ts & S & G). apply scan_iff in S. rewrite S. cbn [bindr].
    assert (B := proj1 body_complete false ts its G [] (2 * List.length ts + 2) (fun _ => eq_refl) ltac:(lia)). cbn [body_close] in B. rewrite B. reflexivity.
Qed.

(* ----- a document is not taken for an object ----- *)

Lemma leading_brace : forall s r ts, scan LNone s = Ok ts -> trim_left s = String "{" r -> exists n ts', ts = (repeat TNl n ++ TLBrace :: ts')%list.
Proof.
  induction s as [|c s IH]; intros r ts H T; [discriminate T|]. cbn [trim_left] in T. destruct (space_char c) eqn:Sp.
  - rewrite scan_cons in H. apply bindr_Ok in H as (p & P & H). apply bindr_Ok in H as (us & U & H). injection H as <-. cbn [step] in P.
    assert (X : p = ([], LNone) \/ p = ([TNl], LNone)) by (clear - P Sp; destruct c as [[] [] [] [] [] [] [] []]; try discriminate Sp; try discriminate P; injection P as <-; auto).
    destruct X as [-> | ->]; cbn [fst snd] in *; destruct (IH r us U T) as (n & ts' & ->); [exists n, ts'|exists (S n), ts']; reflexivity.
  - injection T as -> ->. rewrite scan_cons in H. apply bindr_Ok in H as (p & P & H). apply bindr_Ok in H as (us & U & H). injection H as <-.
    cbn in P. injection P as <-. exists 0, us. reflexivity.
Qed.
Lemma body_brace : forall nested ts its n ts', g_body nested ts its -> ts = (repeat TNl n ++ TLBrace :: ts')%list -> False.
Proof.
  intros nested ts its n ts' H. revert n ts'. induction H as [nested|nested ts its H IH|ts i I|nested ts i r its I H IH F]; intros n ts' E.
  - destruct n; discriminate E.
  - destruct n; [discriminate E|]. injection E as E. exact (IH _ _ E).
  - destruct I; destruct n; discriminate E.
  - destruct I; destruct n; discriminate E.
Qed.
Lemma trim_first : forall c r, space_char c = false -> exists r', trim_right (String c r) = String c r'.
Proof. intros c r S. cbn [trim_right]. rewrite S. destruct (trim_right r); eexists; reflexivity. Qed.
Lemma trim_left_first : forall s, trim_left s = "" \/ exists c r, trim_left s = String c r /\ space_char c = false.
Proof. induction s as [|c s IH]; [left; reflexivity|]. cbn [trim_left]. destruct (space_char c) eqn:S; [exact IH|right; eauto]. Qed.
Lemma document_text : forall s its, hcl_document s its -> (trim_left s = "" /\ its = []) \/ decode_map s = decode_body its.
Proof.
  intros s its D. assert (P := proj2 (document_iff s its) D). destruct D as (ts & S & G). destruct (trim_left_first s) as [T|(c & r & T & C)].
  - left. split; [exact T|]. apply scan_iff in S.
    assert (N : forall t, In t ts -> t = TNl).
    { clear - S T. revert ts S. induction s as [|c s IH]; intros ts S; [injection S as <-; contradiction|]. cbn [trim_left] in T. destruct (space_char c) eqn:W; [|discriminate T].
      rewrite scan_cons in S. apply bindr_Ok in S as (p & P & S). apply bindr_Ok in S as (us & U & S). injection S as <-. cbn [step] in P.
      assert (X : p = ([], LNone) \/ p = ([TNl], LNone)) by (clear - P W; destruct c as [[] [] [] [] [] [] [] []]; try discriminate W; try discriminate P; injection P as <-; auto).
      destruct X as [-> | ->]; cbn [fst snd app] in *; intros t I; [exact (IH T us U t I)|]. destruct I as [<-|I]; [reflexivity|exact (IH T us U t I)]. }
    clear - G N. induction G as [nested|nested ts its H IH|ts i I|nested ts i r its I H IH F]; [reflexivity|apply IH; intros t X; apply N; right; exact X| |];
      destruct I; discriminate (N _ (or_introl eq_refl)).
  - right. destruct (trim_first c r C) as (r' & R). unfold decode_map, trim. rewrite T, R. destruct (Ascii.eqb_spec c "{") as [->|_]; [|cbn [andb]; rewrite P; reflexivity].
    exfalso. apply scan_iff in S. destruct (leading_brace _ _ _ S T) as (n & ts' & E). exact (body_brace _ _ _ _ _ G E).
Qed.
Theorem document_decoded : forall s its, hcl_document s its -> its <> [] -> decode_map s = decode_body its.
Proof. intros s its D N. destruct (document_text s its D) as [(_ & E)|E]; [contradiction|exact E]. Qed.

(* ----- a document without items ----- *)

Theorem empty_document : forall s, hcl_document s [] -> (white s -> exists m, decode_map s = Panic m) /\ (~ white s -> decode_map s = Ok (NMap [])).
Proof.
  assert (A : forall s, white s -> trim_left s = "").
  { induction s as [|c s IH]; intro W; [reflexivity|]. apply only_cons in W. destruct W as [C W]. cbn [trim_left].
    assert (E : space_char c = true) by (destruct C as [->|[->| ->]]; reflexivity). rewrite E. apply IH. exact W. }
  assert (B : forall s ts, scan LNone s = Ok ts -> trim_left s = "" -> white s).
  { induction s as [|c s IH]; intros ts S T; [apply only_nil|]. cbn [trim_left] in T. destruct (space_char c) eqn:W; [|discriminate T].
    rewrite scan_cons in S. apply bindr_Ok in S as (p & P & S). apply bindr_Ok in S as (us & U & S). cbn [step] in P.
    assert (X : snd p = LNone /\ (c = " "%char \/ c = "009"%char \/ c = "010"%char))
      by (clear - P W; destruct c as [[] [] [] [] [] [] [] []]; try discriminate W; try discriminate P; injection P as <-; auto).
    destruct X as [X C]. rewrite X in U. apply only_cons. split; [exact C|exact (IH us U T)]. }
  intros s D. split.
  - intro W. unfold decode_map, trim. rewrite (A s W). eexists. reflexivity.
  - intro W. destruct (document_text s [] D) as [(T & _)|E]; [|exact E]. destruct D as (ts & S & _). apply scan_iff in S. destruct (W (B s ts S T)).
Qed.

(* ----- texts without comments ----- *)

Lemma plain_prefix : forall a r st us ts, PlainScan.scan st (a +++ r) = Ok us -> scan st a = Ok ts ->
  exists st' us', PlainScan.scan st' r = Ok us' /\ exists vs, scan st' "" = Ok vs.
Proof.
  induction a as [|c a IH]; intros r st us ts P H; [exists st, us; split; [exact P|exists ts; exact H]|].
  cbn [String.append PlainScan.scan] in P. cbn [scan] in H. apply bindr_Ok in P as (p & P1 & P). apply bindr_Ok in P as (us' & P & _).
  pose proof (PlainScan.plain_step _ _ _ P1) as Q. rewrite Q in H. cbn [bindr] in H. apply bindr_Ok in H as (ts' & H & _).
  exact (IH _ _ _ _ P H).
Qed.
Lemma plain_bare : forall s us, PlainScan.scan LNone s = Ok us -> bare_values s.
Proof.
  intros s us P a b c ts -> O S. apply scan_iff in S. destruct (plain_prefix _ _ _ _ _ P S) as (st & us' & Q & vs & V).
  assert (B : forall b st us, st = LNone \/ st = LEq -> only blank_char b -> PlainScan.scan st (b +++ "/*" +++ c) <> Ok us).
  { clear. induction b as [|x b IH]; intros st us D O H.
    - destruct D as [->| ->]; cbn in H; discriminate H.
    - apply only_cons in O. destruct O as [X O]. cbn [String.append PlainScan.scan] in H. apply bindr_Ok in H as (p & H1 & H). apply bindr_Ok in H as (us' & H & _).
      apply (IH (snd p) us'); [|exact O|exact H]. left. destruct D as [->| ->], X as [->| ->]; vm_compute in H1; injection H1 as <-; reflexivity. }
  cbn [String.append PlainScan.scan] in Q. apply bindr_Ok in Q as (p & Q1 & Q). apply bindr_Ok in Q as (us'' & Q & _).
  apply (B b (snd p) us''); [|exact O|exact Q].
  destruct st; cbn in V; try discriminate V; cbn in Q1; try discriminate Q1; injection Q1 as <-; auto.
Qed.
