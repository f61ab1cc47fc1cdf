(* The grammar the parser of HclModel.v accepts, and the parser with positions: the text of a
   block parses to its body, the text of an attribute to its expression. *)

From Verif Require Import Base DetModel CtyModel HclModel HclSpec HclParse StructModel StructScan.
From Coq Require Import Lia.

Local Open Scope nat_scope.

Definition nls (n : nat) : list token := repeat TNl n.

Inductive gexpr : expr -> list token -> Prop :=
| ge_num z : gexpr (ENum z) [TNum z]
| ge_neg z : gexpr (ENum (- z)) [TMinus; TNum z]
| ge_dec m k : gexpr (EDec m k) [TDec m k]
| ge_negdec m k : gexpr (EDec (- m) k) [TMinus; TDec m k]
| ge_str s : gexpr (EStr s) [TStr s]
| ge_kw x : gexpr (keyword x) [TIdent x]
| ge_call f : gexpr (ECall f) [TIdent f; TLParen; TRParen]
| ge_tuple l ts : gtuple l ts -> gexpr (ETuple l) (TLBrack :: ts)
| ge_obj m ts : gobject true m ts -> gexpr (EObj m) (TLBrace :: ts)
with gtuple : list expr -> list token -> Prop :=
| gt_end n : gtuple [] (nls n ++ [TRBrack])
| gt_last n e ts m : gexpr e ts -> gtuple [e] (nls n ++ ts ++ nls m ++ [TRBrack])
| gt_more n e ts m l ts' : gexpr e ts -> gtuple l ts' ->
    gtuple (e :: l) (nls n ++ ts ++ nls m ++ TComma :: ts')
with gobject : bool -> list (string * expr) -> list token -> Prop :=
| go_end b n : gobject b [] (nls n ++ [TRBrace])
| go_last b n k s e ts : (b = true -> k <> "for") -> s = TEq \/ s = TColon -> gexpr e ts ->
    gobject b [(k, e)] (nls n ++ TIdent k :: s :: ts ++ [TRBrace])
| go_more b n k s e ts d m ts' : (b = true -> k <> "for") -> s = TEq \/ s = TColon -> gexpr e ts ->
    d = TNl \/ d = TComma -> gobject false m ts' ->
    gobject b ((k, e) :: m) (nls n ++ TIdent k :: s :: ts ++ d :: ts').

Inductive glabels : list string -> list token -> Prop :=
| gl_nil : glabels [] []
| gl_str s ls ts : glabels ls ts -> glabels (s :: ls) (TStr s :: ts)
| gl_ident s ls ts : glabels ls ts -> glabels (s :: ls) (TIdent s :: ts).

(* The tokens of the body of a block: in lines, or one attribute on one line. *)
Definition laid (b : list item) (tb tb2 : list token) : Prop :=
  tb2 = tb \/ exists k e M, b = [IAttr k e] /\ gexpr e M /\ tb2 = (TIdent k :: TEq :: M ++ [TRBrace])%list.

Inductive gbody : bool -> list item -> list token -> Prop :=
| gb_end n : gbody n [] (if n then [TRBrace] else [])
| gb_nl n its ts : gbody n its ts -> gbody n its (TNl :: ts)
| gb_attr n k e ts its ts' : gexpr e ts -> gbody n its ts' -> ~ In k (attr_names its) ->
    gbody n (IAttr k e :: its) (TIdent k :: TEq :: ts ++ TNl :: ts')
| gb_attr_end k e ts : gexpr e ts -> gbody false [IAttr k e] (TIdent k :: TEq :: ts)
| gb_block n k ls lt b tb tb2 its ts' : glabels ls lt -> gbody true b tb -> opens_body tb -> laid b tb tb2 -> gbody n its ts' ->
    gbody n (IBlock k ls b :: its) (TIdent k :: lt ++ TLBrace :: tb2 ++ TNl :: ts')
| gb_block_end k ls lt b tb tb2 : glabels ls lt -> gbody true b tb -> opens_body tb -> laid b tb tb2 ->
    gbody false [IBlock k ls b] (TIdent k :: lt ++ TLBrace :: tb2).

Scheme gexpr_ind2 := Minimality for gexpr Sort Prop
  with gtuple_ind2 := Minimality for gtuple Sort Prop
  with gobject_ind2 := Minimality for gobject Sort Prop.
Combined Scheme g_ind from gexpr_ind2, gtuple_ind2, gobject_ind2.

(* ----- the parser accepts only the grammar ----- *)

Lemma skip_nl_spec : forall ts, exists n, ts = (nls n ++ skip_nl ts)%list.
Proof.
  induction ts as [|t ts [n IH]]; [exists 0; reflexivity|].
  destruct t; try (exists 0; reflexivity). exists (S n). cbn. f_equal. exact IH.
Qed.

Lemma skip_nls : forall n ts, skip_nl (nls n ++ ts) = skip_nl ts.
Proof. induction n as [|n IH]; intro ts; [reflexivity|]. cbn. apply IH. Qed.

Lemma parse_sound : forall n,
  (forall ts e R, pexpr n ts = Ok (e, R) -> exists M, ts = (M ++ R)%list /\ gexpr e M)
  /\ (forall ts l R, ptuple n ts = Ok (l, R) -> exists M, ts = (M ++ R)%list /\ gtuple l M)
  /\ (forall b ts m R, pobject n b ts = Ok (m, R) -> exists M, ts = (M ++ R)%list /\ gobject b m M).
Proof.
  induction n as [|n (IHe & IHt & IHo)]; [repeat split; intros; discriminate|].
  split; [|split].
  - intros ts e R H. cbn [pexpr] in H.
    destruct ts as [|t ts]; [discriminate|]. destruct t; try discriminate.
    + assert (Kw : Ok (keyword s, ts) = Ok (e, R) -> exists M, (TIdent s :: ts)%list = (M ++ R)%list /\ gexpr e M).
      { intro K. injection K as <- <-. exists [TIdent s]. split; [reflexivity|constructor]. }
      destruct ts as [|t1 ts]; [exact (Kw H)|].
      destruct t1; try exact (Kw H).
      destruct ts as [|t2 ts]; [discriminate|]. destruct t2; try discriminate.
      injection H as <- <-. exists [TIdent s; TLParen; TRParen]. split; [reflexivity|constructor].
    + injection H as <- <-. exists [TNum z]. split; [reflexivity|constructor].
    + injection H as <- <-. exists [TDec m k]. split; [reflexivity|constructor].
    + injection H as <- <-. exists [TStr s]. split; [reflexivity|constructor].
    + apply bindr_Ok in H as ([m r] & H & E). injection E as <- <-.
      apply IHo in H as (M & -> & G). exists (TLBrace :: M). split; [reflexivity|constructor; exact G].
    + apply bindr_Ok in H as ([l r] & H & E). injection E as <- <-.
      apply IHt in H as (M & -> & G). exists (TLBrack :: M). split; [reflexivity|constructor; exact G].
    + destruct ts as [|t1 ts]; [discriminate|]. destruct t1; try discriminate.
      * injection H as <- <-. exists [TMinus; TNum z]. split; [reflexivity|constructor].
      * injection H as <- <-. exists [TMinus; TDec m k]. split; [reflexivity|constructor].
  - intros ts l R H. cbn [ptuple] in H.
    destruct (skip_nl_spec ts) as [k K]. remember (skip_nl ts) as ts1 eqn:E1. clear E1.
    assert (Step : (do p <- pexpr n ts1;
      match skip_nl (snd p) with
      | TRBrack :: r => Ok ([fst p], r)
      | TComma :: r => do q <- ptuple n r; Ok (fst p :: fst q, snd q)
      | _ => Err "syntax: missing item separator"
      end) = Ok (l, R) -> exists M, ts = (M ++ R)%list /\ gtuple l M).
    { intro S. apply bindr_Ok in S as ([e r] & S & E). cbn [fst snd] in E.
      apply IHe in S as (M & -> & G).
      destruct (skip_nl_spec r) as [j J]. remember (skip_nl r) as r1 eqn:E1. clear E1. subst r ts.
      destruct r1 as [|t r1]; [discriminate|]. destruct t; try discriminate.
      - injection E as <- <-. exists (nls k ++ M ++ nls j ++ [TRBrack])%list.
        split; [rewrite <- !app_assoc; reflexivity|constructor; exact G].
      - apply bindr_Ok in E as ([l' r'] & S & E). injection E as <- <-.
        apply IHt in S as (M' & -> & G'). exists (nls k ++ M ++ nls j ++ TComma :: M')%list.
        split; [rewrite <- !app_assoc; reflexivity|constructor; assumption]. }
    destruct ts1 as [|t ts1]; [exact (Step H)|]. destruct t; try exact (Step H).
    injection H as <- <-. exists (nls k ++ [TRBrack])%list. rewrite <- app_assoc.
    split; [exact K|constructor].
  - intros b ts m R H. cbn [pobject] in H.
    destruct (skip_nl_spec ts) as [k K]. remember (skip_nl ts) as ts1 eqn:E1. clear E1.
    destruct ts1 as [|t ts1]; [discriminate|]. destruct t; try discriminate.
    + destruct (b && String.eqb s "for")%bool eqn:F.
      { destruct ts1 as [|[] ?]; discriminate. }
      assert (Fo : b = true -> s <> "for").
      { intros -> ->. discriminate. }
      destruct ts1 as [|t ts1]; [discriminate|].
      assert (Step : forall sep, sep = TEq \/ sep = TColon -> t = sep ->
        (do p <- pexpr n ts1;
         match snd p with
         | TRBrace :: r2 => Ok ([(s, fst p)], r2)
         | TNl :: r2 | TComma :: r2 => do q <- pobject n false r2; Ok ((s, fst p) :: fst q, snd q)
         | _ => Err "syntax: missing attribute separator"
         end) = Ok (m, R) -> exists M, ts = (M ++ R)%list /\ gobject b m M).
      { intros sep Hs -> S. apply bindr_Ok in S as ([e r] & S & E). cbn [fst snd] in E.
        apply IHe in S as (M & -> & G). subst ts.
        destruct r as [|t r]; [discriminate|]. destruct t; try discriminate.
        - injection E as <- <-. exists (nls k ++ TIdent s :: sep :: M ++ [TRBrace])%list.
          split; [rewrite <- !app_assoc; cbn; rewrite <- app_assoc; reflexivity|constructor; assumption].
        - apply bindr_Ok in E as ([q rq] & S & E). injection E as <- <-.
          apply IHo in S as (M' & -> & G'). exists (nls k ++ TIdent s :: sep :: M ++ TComma :: M')%list.
          split; [rewrite <- !app_assoc; cbn; rewrite <- app_assoc; reflexivity|].
          apply go_more; auto.
        - apply bindr_Ok in E as ([q rq] & S & E). injection E as <- <-.
          apply IHo in S as (M' & -> & G'). exists (nls k ++ TIdent s :: sep :: M ++ TNl :: M')%list.
          split; [rewrite <- !app_assoc; cbn; rewrite <- app_assoc; reflexivity|].
          apply go_more; auto. }
      destruct t; try discriminate; [exact (Step TEq (or_introl eq_refl) eq_refl H)|
        exact (Step TColon (or_intror eq_refl) eq_refl H)].
    + injection H as <- <-. exists (nls k ++ [TRBrace])%list. rewrite <- app_assoc.
      split; [exact K|constructor].
Qed.

Lemma plabels_sound : forall ts ls R, plabels ts = Ok (ls, R) ->
  exists lt, ts = (lt ++ TLBrace :: R)%list /\ glabels ls lt.
Proof.
  induction ts as [|t ts IH]; intros ls R H; cbn [plabels] in H; [discriminate|].
  destruct t; try discriminate.
  - apply bindr_Ok in H as ([p r] & H & E). injection E as <- <-.
    apply IH in H as (lt & -> & G). eexists (_ :: lt). split; [reflexivity|constructor; exact G].
  - apply bindr_Ok in H as ([p r] & H & E). injection E as <- <-.
    apply IH in H as (lt & -> & G). eexists (_ :: lt). split; [reflexivity|constructor; exact G].
  - injection H as <- <-. exists []. split; [reflexivity|constructor].
Qed.

(* The block part of pbody. *)
Definition block_rest (n : nat) (nested : bool) (k : string) (x : list token) : result (list item * list token) :=
  do p <- plabels x;
  do b <- block_body (pbody n true) n (snd p);
  match snd b with
  | TNl :: r1 =>
    do q <- pbody n nested r1;
    Ok (IBlock k (fst p) (fst b) :: fst q, snd q)
  | [] => if nested then Err "syntax: unclosed block" else Ok ([IBlock k (fst p) (fst b)], [])
  | _ => Err "syntax: missing newline after block definition"
  end.
Lemma pbody_ident : forall n nested k x, hd_error x <> Some TEq ->
  pbody (S n) nested (TIdent k :: x) = block_rest n nested k x.
Proof. intros n nested k [|[] x] H; try reflexivity. exfalso. apply H. reflexivity. Qed.

Lemma block_rest_inv : forall n nested k x its R, block_rest n nested k x = Ok (its, R) ->
  exists ls r b rb, plabels x = Ok (ls, r) /\ block_body (pbody n true) n r = Ok (b, rb) /\
    ((exists r1 its', rb = TNl :: r1 /\ pbody n nested r1 = Ok (its', R) /\ its = IBlock k ls b :: its')
     \/ (rb = [] /\ nested = false /\ R = [] /\ its = [IBlock k ls b])).
Proof.
  intros n nested k x its R H. unfold block_rest in H.
  apply bindr_Ok in H as ([ls r] & Hl & H). cbn [fst snd] in H.
  apply bindr_Ok in H as ([b rb] & Hb & H'). cbn [fst snd] in H'.
  exists ls, r, b, rb. split; [exact Hl|]. split; [exact Hb|].
  destruct rb as [|[] rb]; try discriminate.
  - right. destruct nested; [discriminate|]. injection H' as <- <-. auto.
  - left. apply bindr_Ok in H' as ([q rq] & Hq & E). injection E as <- <-.
    exists rb, q. auto.
Qed.

(* One attribute in lines. *)
Lemma in_lines : forall k e M, gexpr e M ->
  gbody true [IAttr k e] (TNl :: TIdent k :: TEq :: M ++ [TNl; TRBrace]).
Proof. intros k e M G. apply gb_nl, gb_attr; [exact G|apply (gb_end true)|intros []]. Qed.
Lemma block_body_sound : forall n r b rb,
  (forall ts its R, pbody n true ts = Ok (its, R) -> exists M, ts = (M ++ R)%list /\ gbody true its M) ->
  block_body (pbody n true) n r = Ok (b, rb) ->
  exists Mb M2, r = (M2 ++ rb)%list /\ gbody true b Mb /\ opens_body Mb /\ laid b Mb M2.
Proof.
  intros n r b rb H Hb. apply block_body_inv in Hb as [(O & Hb)|(k & e & r' & -> & Hb & ->)].
  - apply H in Hb as (M & -> & G). exists M, M. split; [reflexivity|]. split; [exact G|]. split; [|left; reflexivity].
    destruct M as [|[] M]; try exact O; try exact I. inversion G.
  - apply (proj1 (parse_sound n)) in Hb as (M & -> & G).
    exists (TNl :: TIdent k :: TEq :: M ++ [TNl; TRBrace])%list, (TIdent k :: TEq :: M ++ [TRBrace])%list.
    split; [cbn; rewrite <- app_assoc; reflexivity|]. split; [apply in_lines; exact G|]. split; [exact I|]. right. exists k, e, M. auto.
Qed.

Lemma pbody_sound : forall n nested ts its R, pbody n nested ts = Ok (its, R) ->
  exists M, ts = (M ++ R)%list /\ gbody nested its M /\ (nested = false -> R = []).
Proof.
  induction n as [|n IH]; intros nested ts its R H; [discriminate|].
  destruct ts as [|t ts].
  { cbn in H. destruct nested; [discriminate|]. injection H as <- <-. exists [].
    split; [reflexivity|]. split; [apply (gb_end false)|reflexivity]. }
  destruct t; try discriminate.
  - assert (Blk : forall x, block_rest n nested s x = Ok (its, R) -> ts = x ->
      exists M, (TIdent s :: ts)%list = (M ++ R)%list /\ gbody nested its M /\ (nested = false -> R = [])).
    { intros x Hx ->. apply block_rest_inv in Hx as (ls & r & b & rb & Hl & Hb & C).
      apply plabels_sound in Hl as (lt & -> & GL).
      apply block_body_sound in Hb as (Mb & M2 & -> & GB & OB & LD);
        [|intros ts its0 R0 X; apply IH in X as (M & X & G & _); eauto].
      destruct C as [(r1 & its' & -> & Hq & ->)|(-> & -> & -> & ->)].
      - apply IH in Hq as (Mq & -> & GQ & RN).
        exists (TIdent s :: lt ++ TLBrace :: M2 ++ TNl :: Mq)%list.
        split; [|split; [apply (gb_block _ _ _ _ _ Mb); assumption|exact RN]].
        cbn. rewrite <- !app_assoc. cbn. rewrite <- app_assoc. reflexivity.
      - exists (TIdent s :: lt ++ TLBrace :: M2)%list. rewrite !app_nil_r.
        split; [reflexivity|]. split; [apply (gb_block_end _ _ _ _ Mb); assumption|reflexivity]. }
    destruct ts as [|t ts]; [rewrite pbody_ident in H by discriminate; exact (Blk _ H eq_refl)|].
    assert (D : t = TEq \/ t <> TEq) by (destruct t; first [left; reflexivity|right; discriminate]).
    destruct D as [->|NE].
    + cbn [pbody] in H. apply bindr_Ok in H as ([e r] & He & H). cbn [fst snd] in H.
      apply (proj1 (parse_sound n)) in He as (M & -> & G).
      destruct r as [|t r]; [|destruct t; try discriminate].
      * destruct nested; [discriminate|]. injection H as <- <-.
        exists (TIdent s :: TEq :: M). rewrite !app_nil_r.
        split; [reflexivity|]. split; [constructor; exact G|reflexivity].
      * apply bindr_Ok in H as ([q rq] & Hq & H). cbn [fst snd] in H.
        destruct (in_dec _ _ _) as [|NI]; [discriminate|]. injection H as <- <-.
        apply IH in Hq as (Mq & -> & GQ & RN).
        exists (TIdent s :: TEq :: M ++ TNl :: Mq)%list.
        split; [cbn; rewrite <- app_assoc; reflexivity|]. split; [constructor; assumption|exact RN].
    + rewrite pbody_ident in H by (cbn; congruence). exact (Blk _ H eq_refl).
  - cbn in H. destruct nested; [|discriminate]. injection H as <- <-. exists [TRBrace].
    split; [reflexivity|]. split; [apply (gb_end true)|discriminate].
  - cbn in H. apply IH in H as (M & -> & G & RN). exists (TNl :: M).
    split; [reflexivity|]. split; [constructor; exact G|exact RN].
Qed.

(* ----- and all of it ----- *)

Lemma gexpr_head : forall e ts, gexpr e ts -> exists t r, ts = t :: r
  /\ t <> TNl /\ t <> TRBrack /\ t <> TRBrace /\ t <> TComma /\ t <> TLParen.
Proof. intros e ts H. destruct H; do 2 eexists; split; try reflexivity; repeat split; discriminate. Qed.

Lemma ptuple_step : forall n ts, hd_error ts <> Some TNl -> hd_error ts <> Some TRBrack ->
  ptuple (S n) ts =
  do p <- pexpr n ts;
  match skip_nl (snd p) with
  | TRBrack :: r => Ok ([fst p], r)
  | TComma :: r => do q <- ptuple n r; Ok (fst p :: fst q, snd q)
  | _ => Err "syntax: missing item separator"
  end.
Proof. intros n [|[] ts] H1 H2; try reflexivity; exfalso; [apply H2|apply H1]; reflexivity. Qed.

Lemma ptuple_nls : forall k n ts, ptuple (S n) (nls k ++ ts) = ptuple (S n) ts.
Proof. intros k n ts. cbn [ptuple]. rewrite skip_nls. reflexivity. Qed.
Lemma pobject_nls : forall k n b ts, pobject (S n) b (nls k ++ ts) = pobject (S n) b ts.
Proof. intros k n b ts. cbn [pobject]. rewrite skip_nls. reflexivity. Qed.
Lemma nls_len : forall k, List.length (nls k) = k.
Proof. intro k. apply repeat_length. Qed.
Lemma no_paren_nls : forall m ts, no_paren ts -> no_paren (nls m ++ ts).
Proof. intros [|m] ts H; [exact H|exact I]. Qed.

Lemma parse_complete :
  (forall e ts, gexpr e ts -> forall rest n, no_paren rest -> 2 * List.length ts <= n ->
     pexpr n (ts ++ rest) = Ok (e, rest))
  /\ (forall l ts, gtuple l ts -> forall rest n, 2 * List.length ts + 1 <= n ->
     ptuple n (ts ++ rest) = Ok (l, rest))
  /\ (forall b m ts, gobject b m ts -> forall rest n, 2 * List.length ts + 1 <= n ->
     pobject n b (ts ++ rest) = Ok (m, rest)).
Proof.
  apply g_ind.
  - intros z rest [|n] R L; [cbn in L; lia|]. reflexivity.
  - intros z rest [|n] R L; [cbn in L; lia|]. reflexivity.
  - intros dm dk rest [|n] R L; [cbn in L; lia|]. reflexivity.
  - intros dm dk rest [|n] R L; [cbn in L; lia|]. reflexivity.
  - intros s rest [|n] R L; [cbn in L; lia|]. reflexivity.
  - intros x rest [|n] R L; [cbn in L; lia|].
    destruct rest as [|[] rest]; try contradiction; reflexivity.
  - intros f rest [|n] R L; [cbn in L; lia|]. reflexivity.
  - intros l ts _ IH rest [|n] R L; [cbn in L; lia|]. cbn [app pexpr].
    rewrite IH by (cbn [List.length] in L; lia). reflexivity.
  - intros m ts _ IH rest [|n] R L; [cbn in L; lia|]. cbn [app pexpr].
    rewrite IH by (cbn [List.length] in L; lia). reflexivity.
  - intros k rest [|n] L; [lia|]. rewrite <- app_assoc, ptuple_nls. reflexivity.
  - intros k e ts m G IH rest [|n] L; [lia|].
    rewrite !app_length, !nls_len in L. cbn [List.length] in L.
    rewrite <- !app_assoc, ptuple_nls.
    destruct (gexpr_head e ts G) as (t & r & -> & N1 & N2 & _).
    rewrite ptuple_step by (cbn; congruence).
    rewrite IH; [|apply no_paren_nls; exact I|cbn [List.length] in *; lia].
    cbn [bindr fst snd]. rewrite skip_nls. reflexivity.
  - intros k e ts m l ts' G IH _ IHt rest [|n] L; [lia|].
    rewrite !app_length, !nls_len in L. cbn [List.length] in L.
    rewrite <- !app_assoc, ptuple_nls.
    destruct (gexpr_head e ts G) as (t & r & -> & N1 & N2 & _).
    rewrite ptuple_step by (cbn; congruence).
    rewrite IH; [|apply no_paren_nls; exact I|cbn [List.length] in *; lia].
    cbn [bindr fst snd]. rewrite skip_nls. cbn [app skip_nl]. rewrite IHt by lia. reflexivity.
  - intros b k rest [|n] L; [lia|]. rewrite <- app_assoc, pobject_nls. reflexivity.
  - intros b k key s e ts F S G IH rest [|n] L; [lia|].
    rewrite app_length, nls_len in L. cbn [List.length] in L. rewrite app_length in L. cbn [List.length] in L.
    rewrite <- app_assoc, pobject_nls. cbn [app pobject skip_nl].
    replace (b && String.eqb key "for")%bool with false
      by (destruct b; [|reflexivity]; destruct (String.eqb_spec key "for"); [exfalso; apply F; trivial|reflexivity]).
    rewrite <- app_assoc.
    destruct S as [->| ->]; rewrite IH by (try exact I; lia); reflexivity.
  - intros b k key s e ts d m ts' F S G IH D _ IHo rest [|n] L; [lia|].
    rewrite app_length, nls_len in L. cbn [List.length] in L. rewrite app_length in L. cbn [List.length] in L.
    rewrite <- app_assoc, pobject_nls. cbn [app pobject skip_nl].
    replace (b && String.eqb key "for")%bool with false
      by (destruct b; [|reflexivity]; destruct (String.eqb_spec key "for"); [exfalso; apply F; trivial|reflexivity]).
    rewrite <- app_assoc.
    destruct S as [->| ->]; (rewrite IH; [|destruct D as [->| ->]; exact I|lia]); cbn [bindr fst snd app];
      (destruct D as [->| ->]; rewrite IHo by lia; reflexivity).
Qed.

Lemma plabels_complete : forall ls lt, glabels ls lt -> forall rest,
  plabels (lt ++ TLBrace :: rest) = Ok (ls, rest).
Proof. induction 1; intro rest; cbn [app plabels]; [reflexivity| |]; rewrite IHglabels; reflexivity. Qed.

Lemma glabels_head : forall ls lt rest, glabels ls lt -> hd_error (lt ++ TLBrace :: rest) <> Some TEq.
Proof. intros ls lt rest H. destruct H; cbn; discriminate. Qed.

Lemma opens_app : forall tb r, opens_body tb -> opens_body (tb ++ r).
Proof. intros [|t tb] r H; [contradiction|exact H]. Qed.

Lemma body_complete : forall nested its ts, gbody nested its ts -> forall rest n,
  (nested = false -> rest = []) -> 2 * List.length ts + 1 <= n ->
  pbody n nested (ts ++ rest) = Ok (its, rest).
Proof.
  assert (In : forall n b tb tb2 rest, opens_body tb -> laid b tb tb2 -> 2 * List.length tb2 + 1 <= n ->
      (2 * List.length tb + 1 <= n -> pbody n true (tb ++ rest) = Ok (b, rest)) -> block_body (pbody n true) n (tb2 ++ rest) = Ok (b, rest)).
  { intros n b tb tb2 rest O [->|(k & e & M & -> & G & ->)] L H.
    - rewrite block_body_lines by (apply opens_app; exact O). apply H. exact L.
    - cbn [List.length] in L. rewrite app_length in L. cbn [List.length] in L. cbn [app block_body one_line]. rewrite <- app_assoc.
      rewrite (proj1 parse_complete e M G) by (try exact I; cbn; lia). reflexivity. }
  assert (Opens : forall n (nested : bool) k ls (r : list token) (b : list item) (rb : list token)
      (its' : list item) (R : list token), block_body (pbody n true) n r = Ok (b, rb) ->
    (match rb with
    | TNl :: r1 => do q <- pbody n nested r1; Ok (IBlock k ls b :: fst q, snd q)
    | [] => if nested then Err "syntax: unclosed block" else Ok ([IBlock k ls b], [])
    | _ => Err "syntax: missing newline after block definition"
    end) = Ok (its', R) ->
    (do b <- block_body (pbody n true) n r;
      match snd b with
      | TNl :: r1 => do q <- pbody n nested r1; Ok (IBlock k ls (fst b) :: fst q, snd q)
      | [] => if nested then Err "syntax: unclosed block" else Ok ([IBlock k ls (fst b)], [])
      | _ => Err "syntax: missing newline after block definition"
      end) = Ok (its', R)).
  { intros n nested k ls r b rb its' R Hb H. rewrite Hb. exact H. }
  induction 1 as [nested|nested its ts G IH|nested k e ts its ts' Ge G IH NI|k e ts Ge
    |nested k ls lt b tb tb2 its ts' GL GB IHB O LD G IH|k ls lt b tb tb2 GL GB IHB O LD]; intros rest n R L.
  - destruct n as [|n]; [lia|]. destruct nested; [reflexivity|]. rewrite (R eq_refl). reflexivity.
  - destruct n as [|n]; [lia|]. cbn [app pbody]. apply IH; [exact R|]. cbn [List.length] in L. lia.
  - destruct n as [|n]; [lia|]. cbn [List.length] in L. rewrite app_length in L. cbn [List.length] in L.
    cbn [app]. rewrite <- app_assoc. cbn [pbody app].
    rewrite (proj1 parse_complete e ts Ge) by (try exact I; lia). cbn [bindr fst snd].
    rewrite IH by (try exact R; lia). cbn [bindr fst snd].
    destruct (in_dec string_dec k (attr_names its)); [contradiction|reflexivity].
  - destruct n as [|n]; [lia|]. cbn [List.length] in L. rewrite (R eq_refl). cbn [app pbody].
    rewrite (proj1 parse_complete e ts Ge) by (try exact I; lia). reflexivity.
  - destruct n as [|n]; [lia|]. cbn [List.length] in L. rewrite app_length in L. cbn [List.length] in L.
    rewrite app_length in L. cbn [List.length] in L.
    replace ((TIdent k :: lt ++ TLBrace :: tb2 ++ TNl :: ts') ++ rest)%list
      with (TIdent k :: lt ++ TLBrace :: (tb2 ++ TNl :: ts' ++ rest))%list
      by (cbn; rewrite <- !app_assoc; cbn; rewrite <- app_assoc; reflexivity).
    rewrite pbody_ident by (eapply glabels_head; exact GL). unfold block_rest.
    rewrite (plabels_complete ls lt GL). cbn [bindr fst snd].
    eapply Opens; [apply (In _ _ tb); [exact O|exact LD|lia|intro; apply IHB; [discriminate|lia]]|].
    cbn iota. rewrite IH by (try exact R; lia). reflexivity.
  - destruct n as [|n]; [lia|]. cbn [List.length] in L. rewrite app_length in L. cbn [List.length] in L.
    rewrite (R eq_refl), app_nil_r.
    rewrite pbody_ident by (eapply glabels_head; exact GL). unfold block_rest.
    rewrite (plabels_complete ls lt GL). cbn [bindr fst snd].
    apply (Opens n false k ls tb2 b []); [|reflexivity].
    rewrite <- (app_nil_r tb2). apply (In _ _ tb); [exact O|exact LD|lia|intro; apply IHB; [discriminate|lia]].
Qed.

(* The text of a nested body without its closing brace is a file. *)
Lemma body_unnested : forall nested its ts, gbody nested its ts -> nested = true ->
  exists M, ts = (M ++ [TRBrace])%list /\ gbody false its M.
Proof.
  induction 1 as [nested|nested its ts G IH|nested k e ts its ts' Ge G IH NI|k e ts Ge
    |nested k ls lt b tb tb2 its ts' GL GB IHB O LD G IH|k ls lt b tb tb2 GL GB IHB O LD]; intro N; try discriminate.
  - subst nested. exists []. split; [reflexivity|apply (gb_end false)].
  - destruct (IH N) as (M & -> & H). exists (TNl :: M). split; [reflexivity|constructor; exact H].
  - destruct (IH N) as (M & -> & H). exists (TIdent k :: TEq :: ts ++ TNl :: M)%list.
    split; [cbn; rewrite <- app_assoc; reflexivity|constructor; assumption].
  - destruct (IH N) as (M & -> & H). exists (TIdent k :: lt ++ TLBrace :: tb2 ++ TNl :: M)%list.
    split; [cbn; rewrite <- !app_assoc; cbn; rewrite <- app_assoc; reflexivity|].
    apply (gb_block _ _ _ _ _ tb); assumption.
Qed.
Lemma laid_unnested : forall b tb tb2, gbody true b tb -> laid b tb tb2 -> exists M, tb2 = (M ++ [TRBrace])%list /\ gbody false b M.
Proof.
  intros b tb tb2 G [->|(k & e & M & -> & GE & ->)]; [exact (body_unnested _ _ _ G eq_refl)|].
  exists (TIdent k :: TEq :: M). split; [reflexivity|constructor; exact GE].
Qed.

(* ----- the parser with positions ----- *)

Definition erase (i : pitem) : item :=
  match i with PAttr k e _ _ => IAttr k e | PBlock t ls _ _ b => IBlock t ls b end.

(* Items with positions and the tokens they come from. *)
Inductive gitems : list pitem -> list ptoken -> Prop :=
| gi_end : gitems [] []
| gi_nl p its ts : gitems its ts -> gitems its ((TNl, p) :: ts)
| gi_attr k p0 p1 e M its ts : gexpr e (map tok_of M) ->
    (ts = [] /\ its = [] \/ exists p ts', ts = (TNl, p) :: ts' /\ gitems its ts') ->
    gitems (PAttr k e (snd p1) (last_end 0 M) :: its) ((TIdent k, p0) :: (TEq, p1) :: M ++ ts)
| gi_block k p0 ls lt p1 b tb B p2 its ts : glabels ls (map tok_of lt) ->
    gbody true b tb -> opens_body tb -> laid b tb (map tok_of (B ++ [(TRBrace, p2)])) ->
    (ts = [] /\ its = [] \/ exists p ts', ts = (TNl, p) :: ts' /\ gitems its ts') ->
    gitems (PBlock k ls (snd p1) (fst p2) b :: its)
      ((TIdent k, p0) :: lt ++ (TLBrace, p1) :: B ++ (TRBrace, p2) :: ts).

Lemma map_split : forall (r : list ptoken) (M R : list token), map tok_of r = (M ++ R)%list ->
  exists rM rR, r = (rM ++ rR)%list /\ map tok_of rM = M /\ map tok_of rR = R.
Proof.
  intros r M R H. apply map_eq_app in H as (a & b & -> & <- & <-). exists a, b. auto.
Qed.

Lemma used_split : forall (rM rR : list ptoken) (R : list token), map tok_of rR = R ->
  List.length (rM ++ rR) - List.length R = List.length rM.
Proof. intros rM rR R <-. rewrite app_length, map_length. lia. Qed.

Lemma firstn_app_exact : forall A (a b : list A), firstn (List.length a) (a ++ b) = a.
Proof. intros A a b. rewrite firstn_app, Nat.sub_diag, firstn_all, app_nil_r. reflexivity. Qed.
Lemma skipn_app_exact : forall A (a b : list A), skipn (List.length a) (a ++ b) = b.
Proof. intros A a b. rewrite skipn_app, Nat.sub_diag, skipn_all. reflexivity. Qed.

(* The block part of pitems. *)
Definition pitems_block (n' : nat) (k : string) (r : list ptoken) : result (list pitem) :=
  do p <- plabels (map tok_of r);
  let used := List.length r - List.length (snd p) in
  let open_end := last_end 0 (firstn used r) in
  let r0 := skipn used r in
  do b <- block_body (pbody n' true) n' (snd p);
  let used' := List.length r0 - List.length (snd b) in
  let it := PBlock k (fst p) open_end (last_start 0 (firstn used' r0)) (fst b) in
  match skipn used' r0 with
  | (TNl, _) :: r1 => do q <- pitems n' r1; Ok (it :: q)
  | [] => Ok [it]
  | _ => Err "syntax: missing newline after block definition"
  end.
Lemma pitems_ident : forall n k p x, hd_error (map tok_of x) <> Some TEq ->
  pitems (S n) ((TIdent k, p) :: x) = pitems_block n k x.
Proof.
  intros n k p [|[[] q] x] H; try reflexivity. exfalso. apply H. reflexivity.
Qed.

Lemma last_end_snoc : forall d l x, last_end d (l ++ [x]) = snd (snd x).
Proof. intros d l x. unfold last_end. rewrite map_app. cbn. apply last_last. Qed.
Lemma last_start_snoc : forall d l x, last_start d (l ++ [x]) = fst (snd x).
Proof. intros d l x. unfold last_start. rewrite map_app. cbn. apply last_last. Qed.

Lemma pitems_block_inv : forall n k x its, pitems_block n k x = Ok its ->
  exists ls lt p1 b tb B p2 ts its', x = (lt ++ (TLBrace, p1) :: B ++ (TRBrace, p2) :: ts)%list /\
    glabels ls (map tok_of lt) /\ gbody true b tb /\ opens_body tb /\ laid b tb (map tok_of (B ++ [(TRBrace, p2)])) /\
    its = PBlock k ls (snd p1) (fst p2) b :: its' /\
    (ts = [] /\ its' = [] \/ exists p ts', ts = (TNl, p) :: ts' /\ pitems n ts' = Ok its').
Proof.
  intros n k x its H. unfold pitems_block in H.
  apply bindr_Ok in H as ([ls r] & Hl & H). cbn [fst snd] in H.
  apply plabels_sound in Hl as (lt & El & GL).
  change (lt ++ TLBrace :: r)%list with (lt ++ [TLBrace] ++ r)%list in El. rewrite app_assoc in El.
  apply map_split in El as (xl & x0 & -> & E1 & E0).
  apply map_split in E1 as (xl' & xb & -> & EL & EB).
  destruct xb as [|[t1 p1] [|? ?]]; try discriminate. cbn in EB. injection EB as ->.
  rewrite (used_split _ x0 r E0), firstn_app_exact, skipn_app_exact in H.
  rewrite last_end_snoc in H. cbn [snd] in H.
  apply bindr_Ok in H as ([b rb] & Hb & H'). cbn [fst snd] in H'.
  apply block_body_sound in Hb as (tb & Mb & Eb & GB & O & LD);
    [|intros ts its0 R0 X; apply pbody_sound in X as (M & X & G & _); eauto].
  rewrite Eb in E0.
  apply map_split in E0 as (xB & xr & -> & EB & ER).
  rewrite (used_split _ xr rb ER), firstn_app_exact, skipn_app_exact in H'.
  destruct (laid_unnested _ _ _ GB LD) as (M0 & EM & _).
  rewrite EM in EB. apply map_split in EB as (B & xz & -> & EB & EZ).
  destruct xz as [|[tz p2] [|? ?]]; try discriminate. cbn in EZ. injection EZ as ->.
  rewrite last_start_snoc in H'. cbn [fst snd] in H'.
  exists ls, xl', p1, b, tb, B, p2, xr.
  assert (EM' : map tok_of (B ++ [(TRBrace, p2)]) = Mb).
  { rewrite map_app, EB, EM. reflexivity. }
  rewrite <- EM' in LD.
  assert (Shape : ((xl' ++ [(TLBrace, p1)]) ++ (B ++ [(TRBrace, p2)]) ++ xr)%list
    = (xl' ++ (TLBrace, p1) :: B ++ (TRBrace, p2) :: xr)%list).
  { rewrite <- !app_assoc. reflexivity. }
  destruct xr as [|[t q] xr].
  - injection H' as <-. exists []. rewrite EL. split; [exact Shape|]. split; [exact GL|].
    split; [exact GB|]. split; [exact O|]. split; [exact LD|]. split; [reflexivity|left; auto].
  - destruct t; try discriminate. apply bindr_Ok in H' as (its' & Hq & E). injection E as <-.
    exists its'. rewrite EL. split; [exact Shape|]. split; [exact GL|].
    split; [exact GB|]. split; [exact O|]. split; [exact LD|]. split; [reflexivity|].
    right. exists q, xr. auto.
Qed.

Lemma pitems_sound : forall n ts its, pitems n ts = Ok its -> gitems its ts.
Proof.
  induction n as [|n IH]; intros ts its H; [discriminate|].
  destruct ts as [|[t p] ts]; [injection H as <-; constructor|].
  destruct t; try discriminate.
  - assert (C : hd_error (map tok_of ts) = Some TEq \/ hd_error (map tok_of ts) <> Some TEq).
    { destruct ts as [|[[] q] ts]; cbn; (left; reflexivity) || (right; discriminate). }
    destruct C as [C|C].
    + destruct ts as [|[t p1] r]; [discriminate|]. cbn in C. injection C as ->.
      destruct p1 as [a q]. cbn [pitems] in H.
      apply bindr_Ok in H as ([e R] & He & H). cbn [fst snd] in H.
      apply (proj1 (parse_sound n)) in He as (M & E & G).
      apply map_split in E as (rM & rR & -> & EM & ER).
      rewrite (used_split _ rR R ER), firstn_app_exact, skipn_app_exact in H. rewrite <- EM in G.
      destruct rR as [|[t q'] rR].
      * injection H as <-. apply (gi_attr _ p (a, q)); [exact G|left; auto].
      * destruct t; try discriminate. apply bindr_Ok in H as (its' & H & E'). injection E' as <-.
        apply (gi_attr _ p (a, q)); [exact G|]. right. exists q', rR. split; [reflexivity|apply IH; exact H].
    + rewrite pitems_ident in H by exact C.
      apply pitems_block_inv in H as (ls & lt & p1 & b & tb & B & p2 & r & its' & -> & GL & GB & O & LD & -> & T).
      apply (gi_block _ _ _ _ _ _ tb); [exact GL|exact GB|exact O|exact LD|].
      destruct T as [T|(q & r' & -> & T)]; [left; exact T|].
      right. exists q, r'. split; [reflexivity|apply IH; exact T].
  - constructor. apply IH. exact H.
Qed.

(* Every item has its place among the tokens. *)
Lemma gitems_attr : forall its ts, gitems its ts -> forall k e q z, In (PAttr k e q z) its ->
  exists A p0 p1 M B, ts = (A ++ (TIdent k, p0) :: (TEq, p1) :: M ++ B)%list /\ gexpr e (map tok_of M)
    /\ q = snd p1 /\ z = last_end 0 M.
Proof.
  fix IH 3. intros its ts H. destruct H as [|p its ts H|k p0 p1 e M its ts G T|k p0 ls lt p1 b tb B p2 its ts GL GB O LD T];
    intros k' e' q z I.
  - contradiction.
  - destruct (IH _ _ H _ _ _ _ I) as (A & a & b & M & B & -> & R).
    exists ((TNl, p) :: A), a, b, M, B. split; [reflexivity|exact R].
  - destruct I as [F|I].
    + injection F as <- <- <- <-. exists [], p0, p1, M, ts. repeat split. exact G.
    + destruct T as [(_ & ->)|(p & ts' & -> & H)]; [contradiction|].
      destruct (IH _ _ H _ _ _ _ I) as (A & a & b & M' & B & -> & R).
      exists ((TIdent k, p0) :: (TEq, p1) :: M ++ (TNl, p) :: A)%list, a, b, M', B.
      split; [cbn; rewrite <- app_assoc; reflexivity|exact R].
  - destruct I as [F|I]; [discriminate|].
    destruct T as [(_ & ->)|(p & ts' & -> & H)]; [contradiction|].
    destruct (IH _ _ H _ _ _ _ I) as (A & a & c & M' & B' & -> & R).
    exists ((TIdent k, p0) :: lt ++ (TLBrace, p1) :: B ++ (TRBrace, p2) :: (TNl, p) :: A)%list, a, c, M', B'.
    split; [cbn; rewrite <- !app_assoc; cbn; rewrite <- app_assoc; reflexivity|exact R].
Qed.
Lemma gitems_block : forall its ts, gitems its ts -> forall k ls o c b, In (PBlock k ls o c b) its ->
  exists A p1 M p2 R, ts = (A ++ (TLBrace, p1) :: M ++ (TRBrace, p2) :: R)%list
    /\ gbody false b (map tok_of M) /\ o = snd p1 /\ c = fst p2.
Proof.
  fix IH 3. intros its ts H. destruct H as [|p its ts H|k p0 p1 e M its ts G T|k p0 ls lt p1 b tb B p2 its ts GL GB O LD T];
    intros k' ls' o c b' I.
  - contradiction.
  - destruct (IH _ _ H _ _ _ _ _ I) as (A & a & M & d & B & -> & R).
    exists ((TNl, p) :: A), a, M, d, B. split; [reflexivity|exact R].
  - destruct I as [F|I]; [discriminate|].
    destruct T as [(_ & ->)|(p & ts' & -> & H)]; [contradiction|].
    destruct (IH _ _ H _ _ _ _ _ I) as (A & a & M' & d & B & -> & R).
    exists ((TIdent k, p0) :: (TEq, p1) :: M ++ (TNl, p) :: A)%list, a, M', d, B.
    split; [cbn; rewrite <- app_assoc; reflexivity|exact R].
  - destruct I as [F|I].
    + injection F as <- <- <- <- <-. exists ((TIdent k, p0) :: lt), p1, B, p2, ts. repeat split.
      destruct (laid_unnested _ _ _ GB LD) as (M & E & G). rewrite map_app in E. cbn in E. apply app_inj_tail in E as (<- & _). exact G.
    + destruct T as [(_ & ->)|(p & ts' & -> & H)]; [contradiction|].
      destruct (IH _ _ H _ _ _ _ _ I) as (A & a & M' & d & B' & -> & R).
      exists ((TIdent k, p0) :: lt ++ (TLBrace, p1) :: B ++ (TRBrace, p2) :: (TNl, p) :: A)%list, a, M', d, B'.
      split; [cbn; rewrite <- !app_assoc; cbn; rewrite <- app_assoc; reflexivity|exact R].
Qed.

Lemma erased_names : forall its, attr_names (map erase its) = pitem_names its.
Proof. induction its as [|[k e q z|k ls o c b] its IH]; cbn; [reflexivity| |]; unfold attr_names in *; cbn; rewrite IH; reflexivity. Qed.

Lemma block_tokens : forall k p0 (lt : list ptoken) p1 (B : list ptoken) p2 (ts : list ptoken),
  map tok_of ((TIdent k, p0) :: lt ++ (TLBrace, p1) :: B ++ (TRBrace, p2) :: ts)
  = (TIdent k :: map tok_of lt ++ TLBrace :: map tok_of (B ++ [(TRBrace, p2)]) ++ map tok_of ts)%list.
Proof. intros. cbn. rewrite !map_app. cbn. rewrite !map_app, <- app_assoc. reflexivity. Qed.
Lemma gitems_gbody : forall its ts, gitems its ts -> NoDup (pitem_names its) ->
  gbody false (map erase its) (map tok_of ts).
Proof.
  fix IH 3. intros its ts H. destruct H as [|p its ts H|k p0 p1 e M its ts G T|k p0 ls lt p1 b tb B p2 its ts GL GB O LD T];
    intro ND.
  - apply (gb_end false).
  - cbn. constructor. exact (IH _ _ H ND).
  - cbn [map erase]. cbn in ND. inversion ND as [|? ? NI ND']; subst.
    change (map tok_of ((TIdent k, p0) :: (TEq, p1) :: M ++ ts))
      with (TIdent k :: TEq :: map tok_of (M ++ ts)).
    rewrite map_app.
    destruct T as [(-> & ->)|(p & ts' & -> & H)].
    + constructor. rewrite <- (app_nil_r (map tok_of M)) in G. exact G.
    + change (map tok_of ((TNl, p) :: ts')) with (TNl :: map tok_of ts').
      constructor; [exact G|exact (IH _ _ H ND')|]. rewrite erased_names. exact NI.
  - cbn [map erase]. cbn in ND.
    refine (eq_ind_r (fun m => gbody false (IBlock k ls b :: map erase its) m) _ (block_tokens k p0 lt p1 B p2 ts)).
    destruct T as [(-> & ->)|(p & ts' & -> & H)].
    + rewrite <- (app_nil_r (map tok_of (B ++ [(TRBrace, p2)]))) in LD.
      apply (gb_block_end _ _ _ _ tb); assumption.
    + change (map tok_of ((TNl, p) :: ts')) with (TNl :: map tok_of ts').
      apply (gb_block _ _ _ _ _ tb); [exact GL|exact GB|exact O|exact LD|exact (IH _ _ H ND)].
Qed.

Lemma gbody_names : forall nested its ts, gbody nested its ts -> NoDup (attr_names its).
Proof.
  induction 1 as [nested|nested its ts G IH|nested k e ts its ts' Ge G IH NI|k e ts Ge
    |nested k ls lt b tb tb2 its ts' GL GB IHB O LD G IH|k ls lt b tb tb2 GL GB IHB O LD]; cbn.
  - constructor.
  - exact IH.
  - constructor; assumption.
  - constructor; [intros []|constructor].
  - exact IH.
  - constructor.
Qed.

Lemma pitems_complete : forall n ts b R, pbody n false (map tok_of ts) = Ok (b, R) ->
  exists its, pitems n ts = Ok its /\ map erase its = b.
Proof.
  induction n as [|n IH]; intros ts b R H; [discriminate|].
  destruct ts as [|[t p] ts]; [injection H as <- _; exists []; split; reflexivity|].
  destruct t; try discriminate.
  - change (map tok_of ((TIdent s, p) :: ts)) with (TIdent s :: map tok_of ts) in H.
    assert (C : hd_error (map tok_of ts) = Some TEq \/ hd_error (map tok_of ts) <> Some TEq).
    { destruct ts as [|[[] q] ts]; cbn; (left; reflexivity) || (right; discriminate). }
    destruct C as [C|C].
    + destruct ts as [|[t p1] r]; [discriminate|]. cbn in C. injection C as ->. destruct p1 as [a q].
      change (map tok_of ((TEq, (a, q)) :: r)) with (TEq :: map tok_of r) in H.
      cbn [pbody] in H. cbn [pitems].
      apply bindr_Ok in H as ([e r1] & He & H). rewrite He. cbn [bindr fst snd] in H |- *.
      apply (proj1 (parse_sound n)) in He as (M & E & G).
      apply map_split in E as (rM & rR & -> & EM & ER).
      rewrite (used_split _ rR r1 ER), firstn_app_exact, skipn_app_exact.
      destruct r1 as [|t r1].
      * apply map_eq_nil in ER. subst rR. injection H as <- _. eexists. split; reflexivity.
      * destruct t; try discriminate. destruct rR as [|[t q'] rR]; [discriminate|].
        cbn in ER. injection ER as -> <-.
        apply bindr_Ok in H as ([b' R'] & Hq & H). cbn [fst snd] in H.
        destruct (in_dec _ _ _) as [|NI]; [discriminate|]. injection H as <- <-.
        apply IH in Hq as (its & -> & <-). cbn [bindr]. eexists. split; reflexivity.
    + rewrite pitems_ident by exact C. rewrite pbody_ident in H by exact C.
      apply block_rest_inv in H as (ls & r & b' & rb & Hl & Hb & T).
      unfold pitems_block. rewrite Hl. cbn [bindr fst snd].
      apply plabels_sound in Hl as (lt & El & GL).
      change (lt ++ TLBrace :: r)%list with (lt ++ [TLBrace] ++ r)%list in El. rewrite app_assoc in El.
      apply map_split in El as (xl & x0 & -> & E1 & E0).
      rewrite (used_split _ x0 r E0), firstn_app_exact, skipn_app_exact.
      rewrite Hb. cbn [bindr fst snd].
      apply block_body_sound in Hb as (tb & Mb & -> & GB & _);
        [|intros ts its0 R0 X; apply pbody_sound in X as (M & X & G & _); eauto].
      apply map_split in E0 as (xB & xr & -> & EB & ER).
      rewrite (used_split _ xr rb ER), skipn_app_exact.
      destruct T as [(r1 & its' & -> & Hq & ->)|(-> & _ & -> & ->)].
      * destruct xr as [|[t q'] xr]; [discriminate|]. cbn in ER. injection ER as -> <-.
        apply IH in Hq as (its & -> & <-). cbn [bindr]. eexists. split; reflexivity.
      * apply map_eq_nil in ER. subst xr. eexists. split; reflexivity.
  - apply (IH ts b R). exact H.
Qed.

(* ----- the file with positions is the file ----- *)

Lemma has_dup_false : forall l, has_dup l = false <-> NoDup l.
Proof.
  induction l as [|x l IH]; cbn; [split; [constructor|reflexivity]|].
  rewrite orb_false_iff, IH. split.
  - intros (A & B). constructor; [|exact B]. intro I.
    assert (existsb (String.eqb x) l = true) by (apply existsb_exists; exists x; split; [exact I|apply String.eqb_refl]).
    congruence.
  - intro H. inversion H as [|? ? NI ND]; subst. split; [|exact ND].
    destruct (existsb (String.eqb x) l) eqn:X; [|reflexivity].
    apply existsb_exists in X as (y & I & Y). apply String.eqb_eq in Y. subst y. contradiction.
Qed.


Lemma pscan_of_scan : forall s ts, scan LNone s = Ok ts ->
  exists pts, pscan LNone 0 0 s = Ok pts /\ map tok_of pts = ts.
Proof.
  intros s ts H. rewrite (pscan_scan s LNone 0 0) in H.
  apply bindr_Ok in H as (pts & H & E). injection E as <-. exists pts. auto.
Qed.
Lemma parse_file_inv : forall s its, parse_file s = Ok its ->
  exists ts, pscan LNone 0 0 s = Ok ts /\ gitems its ts /\ NoDup (pitem_names its).
Proof.
  intros s its H. unfold parse_file in H. apply bindr_Ok in H as (ts & Hs & H).
  apply bindr_Ok in H as (its' & Hp & H). destruct (has_dup _) eqn:D; [discriminate|].
  injection H as ->. exists ts. split; [exact Hs|]. split; [exact (pitems_sound _ _ _ Hp)|].
  apply has_dup_false. exact D.
Qed.
Lemma grammar_parses : forall s ts b, scan LNone s = Ok ts -> gbody false b ts -> parse_config s = Ok b.
Proof.
  intros s ts b Hs G. unfold parse_config. rewrite Hs. cbn [bindr].
  pose proof (body_complete _ _ _ G [] (2 * List.length ts + 2) (fun _ => eq_refl) ltac:(lia)) as P.
  rewrite app_nil_r in P. rewrite P. reflexivity.
Qed.

Theorem file_sound : forall s its, parse_file s = Ok its -> parse_config s = Ok (map erase its).
Proof.
  intros s its H. apply parse_file_inv in H as (ts & Hs & G & ND).
  apply (grammar_parses s (map tok_of ts)); [|apply gitems_gbody; assumption].
  rewrite (pscan_scan s LNone 0 0), Hs. reflexivity.
Qed.
Theorem file_complete : forall s b, parse_config s = Ok b -> exists its, parse_file s = Ok its /\ map erase its = b.
Proof.
  intros s b H. unfold parse_config in H. apply bindr_Ok in H as (ts & Hs & H).
  apply bindr_Ok in H as ([b' R] & Hp & E). injection E as <-.
  apply pscan_of_scan in Hs as (pts & Hs & <-).
  pose proof (pbody_sound _ _ _ _ _ Hp) as (M & _ & G & _).
  apply pitems_complete in Hp as (its & Hp & <-). exists its. split; [|reflexivity].
  unfold parse_file. rewrite Hs. cbn [bindr]. rewrite map_length in Hp. rewrite Hp. cbn [bindr].
  destruct (has_dup (pitem_names its)) eqn:D; [|reflexivity].
  apply gbody_names in G. cbn [fst] in G. rewrite erased_names in G.
  apply has_dup_false in G. congruence.
Qed.

(* ----- the text of a block or attribute parses to it ----- *)

Theorem block_text_parses : forall s its k ls o c b, parse_file s = Ok its -> In (PBlock k ls o c b) its ->
  parse_config (slice s o c) = Ok b.
Proof.
  intros s its k ls o c b H I. apply parse_file_inv in H as (ts & Hs & G & _).
  destruct (gitems_block _ _ G _ _ _ _ _ I) as (A & p1 & M & p2 & R & -> & GB & -> & ->).
  apply text_between in Hs. cbn [snd fst] in Hs.
  exact (grammar_parses _ _ _ Hs GB).
Qed.

Lemma gexpr_last : forall e ts, gexpr e ts -> exists M t, ts = (M ++ [t])%list.
Proof.
  intros e ts H. destruct (gexpr_head _ _ H) as (t & r & -> & _).
  destruct (exists_last (l := t :: r)) as (M & z & E); [discriminate|]. exists M, z. exact E.
Qed.
Lemma scan_x : forall t ts, scan LNone t = Ok ts -> scan LNone ("x = " +++ t) = Ok (TIdent "x" :: TEq :: ts).
Proof.
  intros t ts H. cbn - [scan]. cbn [scan step].
  replace (step0 "x") with (@Ok (list token * lexst) ([], LIdent "x")) by (vm_compute; reflexivity).
  cbn [bindr fst snd].
  replace (step (LIdent "x") " ") with (@Ok (list token * lexst) ([TIdent "x"], LNone)) by (vm_compute; reflexivity).
  cbn [bindr fst snd].
  replace (step LNone "=") with (@Ok (list token * lexst) ([], LEq)) by (vm_compute; reflexivity).
  cbn [bindr fst snd].
  replace (step LEq " ") with (@Ok (list token * lexst) ([TEq], LNone)) by (vm_compute; reflexivity).
  cbn [bindr fst snd]. rewrite H. reflexivity.
Qed.

Theorem attr_text_parses : forall s its k e q z, parse_file s = Ok its -> In (PAttr k e q z) its ->
  parse_config ("x = " +++ slice s q z) = Ok [IAttr "x" e].
Proof.
  intros s its k e q z H I. apply parse_file_inv in H as (ts & Hs & G & _).
  destruct (gitems_attr _ _ G _ _ _ _ I) as (A & p0 & p1 & M & B & -> & GE & -> & ->).
  destruct (exists_last (l := M)) as (M' & z & ->).
  { intros ->. apply gexpr_last in GE as (? & ? & E). destruct x; discriminate. }
  rewrite last_end_snoc.
  change (A ++ (TIdent k, p0) :: (TEq, p1) :: (M' ++ [z]) ++ B)%list
    with (A ++ [(TIdent k, p0)] ++ (TEq, p1) :: (M' ++ [z]) ++ B)%list in Hs.
  rewrite <- (app_assoc M'), app_assoc in Hs. apply text_upto in Hs. cbn [fst snd] in Hs.
  apply (grammar_parses _ _ _ (scan_x _ _ Hs)). constructor. exact GE.
Qed.

(* The tokens of an expression are no body, nor the start of one. *)
Lemma glabels_first : forall ls lt, glabels ls lt ->
  lt = [] \/ (exists s r, lt = TStr s :: r) \/ (exists s r, lt = TIdent s :: r).
Proof. intros ls lt H. destruct H; eauto. Qed.
Lemma expr_not_body : forall e ts rest b, gexpr e ts -> rest = [] \/ (exists r, rest = TNl :: r) ->
  gbody false b (ts ++ rest) -> False.
Proof.
  intros e ts rest b G R GB. destruct (gexpr_head _ _ G) as (h & r0 & -> & N1 & _).
  assert (Hd : exists x r, (h :: r0)%list = TIdent x :: r).
  { inversion GB; subst; eauto; [congruence]. }
  destruct Hd as (x & r & Hd). injection Hd as -> ->.
  assert (S : r = [] \/ r = [TLParen; TRParen]) by (inversion G; subst; auto).
  assert (Next : forall lt tail, (exists ls, glabels ls lt) -> (r ++ rest = lt ++ TLBrace :: tail)%list -> False).
  { intros lt tail (ls & GL) Eq. destruct (glabels_first _ _ GL) as [->|[(y & q & ->)|(y & q & ->)]];
      destruct S as [-> | ->], R as [->|(z & ->)]; cbn in Eq; try discriminate. }
  assert (NE : forall tail, (r ++ rest = TEq :: tail)%list -> False).
  { intros tail Eq. destruct S as [-> | ->], R as [->|(z & ->)]; cbn in Eq; discriminate. }
  cbn in GB. inversion GB; subst; eauto.
Qed.

Lemma parse_config_inv : forall s b, parse_config s = Ok b -> exists ts, scan LNone s = Ok ts /\ gbody false b ts.
Proof.
  intros s b H. unfold parse_config in H. apply bindr_Ok in H as (ts & Hs & H).
  apply bindr_Ok in H as ([b' R] & Hp & E). injection E as <-.
  apply pbody_sound in Hp as (M & -> & G & HR). rewrite (HR eq_refl), app_nil_r in Hs. eauto.
Qed.

(* The text of an attribute's expression is no body. *)
Theorem attr_text_no_body : forall s its k e q z b, parse_file s = Ok its -> In (PAttr k e q z) its ->
  parse_config (slice s q z) <> Ok b.
Proof.
  intros s its k e q z b H I F. apply parse_file_inv in H as (ts & Hs & G & _).
  destruct (gitems_attr _ _ G _ _ _ _ I) as (A & p0 & p1 & M & B & -> & GE & -> & ->).
  destruct (exists_last (l := M)) as (M' & w & ->).
  { intros ->. apply gexpr_last in GE as (? & ? & E). destruct x; discriminate. }
  rewrite last_end_snoc in F.
  change (A ++ (TIdent k, p0) :: (TEq, p1) :: (M' ++ [w]) ++ B)%list
    with (A ++ [(TIdent k, p0)] ++ (TEq, p1) :: (M' ++ [w]) ++ B)%list in Hs.
  rewrite <- (app_assoc M'), app_assoc in Hs. apply text_upto in Hs. cbn [fst snd] in Hs.
  apply parse_config_inv in F as (ts & Hs' & GB). rewrite Hs in Hs'. injection Hs' as <-.
  eapply (expr_not_body e _ [] b GE); [left; reflexivity|]. rewrite app_nil_r. exact GB.
Qed.

(* A body is no expression. *)
Theorem body_no_expr : forall s b its e, parse_config s = Ok b -> parse_config ("x = " +++ s) = Ok its ->
  first_expr its <> Some e.
Proof.
  intros s b its e H1 H2 F. apply parse_config_inv in H1 as (ts & Hs & G1).
  apply parse_config_inv in H2 as (ts2 & Hs2 & G2).
  rewrite (scan_x _ _ Hs) in Hs2. injection Hs2 as <-.
  assert (Next : forall lt tail, (exists ls, glabels ls lt) -> (TEq :: ts = lt ++ TLBrace :: tail)%list -> False).
  { intros lt tail (ls & GL) Eq. destruct (glabels_first _ _ GL) as [->|[(y & q & ->)|(y & q & ->)]]; discriminate Eq. }
  inversion G2 as [| |? k e' t1 its' t' GE GB NI Q1 Q2|k e' t1 GE Q1 Q2|? k ls lt b' tb tb2 its' t' GL G0 O LD GB Q1 Q2|k ls lt b' tb tb2 GL G0 O LD Q1 Q2]; subst.
  - exact (expr_not_body _ _ (TNl :: t') b GE (or_intror (ex_intro _ t' eq_refl)) G1).
  - apply (expr_not_body _ _ [] b GE (or_introl eq_refl)). rewrite app_nil_r. exact G1.
  - match goal with X : (lt ++ _)%list = _ |- _ => symmetry in X; exact (Next _ _ (ex_intro _ ls GL) X) end.
  - match goal with X : (lt ++ _)%list = _ |- _ => symmetry in X; exact (Next _ _ (ex_intro _ ls GL) X) end.
Qed.
