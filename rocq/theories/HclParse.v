(* The parser on the token layouts that the marshaller writes. *)

From Verif Require Import Base CtyModel CtySpec HclModel HclSpec.
From Coq Require Import Lia.

(* Tokens that read as an expression, as the rest of a tuple or object, as a body. *)
Inductive etoks : expr -> list token -> Prop :=
| et_num z : etoks (ENum z) [TNum z]
| et_neg z : etoks (ENum (- z)) [TMinus; TNum z]
| et_dec m k : etoks (EDec m k) [TDec m k]
| et_negdec m k : etoks (EDec (- m) k) [TMinus; TDec m k]
| et_str s : etoks (EStr s) [TStr s]
| et_kw x : etoks (keyword x) [TIdent x]
| et_call f : etoks (ECall f) [TIdent f; TLParen; TRParen]
| et_tuple l ts : ttoks l ts -> etoks (ETuple l) (TLBrack :: ts)
| et_obj m ts : otoks m ts -> etoks (EObj m) (TLBrace :: ts)
with ttoks : list expr -> list token -> Prop :=
| tt_end : ttoks [] [TRBrack]
| tt_nl l ts : ttoks l ts -> ttoks l (TNl :: ts)
| tt_last e ts : etoks e ts -> ttoks [e] (ts ++ [TNl; TRBrack])
| tt_last0 e ts : etoks e ts -> ttoks [e] (ts ++ [TRBrack])
| tt_more e l ts ts' : etoks e ts -> ttoks l ts' -> ttoks (e :: l) (ts ++ TComma :: ts')
with otoks : list (string * expr) -> list token -> Prop :=
| ot_end : otoks [] [TRBrace]
| ot_nl m ts : otoks m ts -> otoks m (TNl :: ts)
| ot_more k e m ts ts' : k <> "for" -> etoks e ts -> otoks m ts' ->
    otoks ((k, e) :: m) (TIdent k :: TEq :: ts ++ TNl :: ts').

Inductive btoks : bool -> list item -> list token -> Prop :=
| bt_end n : btoks n [] (if n then [TRBrace] else [])
| bt_nl n its ts : btoks n its ts -> btoks n its (TNl :: ts)
| bt_item n i its ts ts' : itoks i ts -> btoks n its ts' ->
    (forall k, In k (attr_names [i]) -> ~ In k (attr_names its)) ->
    btoks n (i :: its) (ts ++ TNl :: ts')
with itoks : item -> list token -> Prop :=
| it_attr k e ts : etoks e ts -> itoks (IAttr k e) (TIdent k :: TEq :: ts)
| it_block k ls b ts : btoks true b (TNl :: ts) ->
    itoks (IBlock k ls b) (TIdent k :: map TStr ls ++ TLBrace :: TNl :: ts).

Scheme etoks_ind2 := Minimality for etoks Sort Prop
  with ttoks_ind2 := Minimality for ttoks Sort Prop
  with otoks_ind2 := Minimality for otoks Sort Prop.
Combined Scheme toks_ind from etoks_ind2, ttoks_ind2, otoks_ind2.
Scheme btoks_ind2 := Minimality for btoks Sort Prop
  with itoks_ind2 := Minimality for itoks Sort Prop.
Combined Scheme btoks_mut from btoks_ind2, itoks_ind2.

Definition no_paren (ts : list token) : Prop :=
  match ts with TLParen :: _ => False | _ => True end.

Lemma etoks_head : forall e ts, etoks e ts -> exists t r, ts = t :: r
  /\ t <> TNl /\ t <> TRBrack /\ t <> TRBrace /\ t <> TComma /\ t <> TLParen.
Proof. intros e ts H. destruct H; do 2 eexists; split; try reflexivity; repeat split; discriminate. Qed.

Local Open Scope nat_scope.

Lemma parse_toks :
  (forall e ts, etoks e ts -> forall rest n, no_paren rest -> 2 * List.length ts <= n ->
     pexpr n (ts ++ rest) = Ok (e, rest))
  /\ (forall l ts, ttoks l ts -> forall rest n, 2 * List.length ts + 1 <= n ->
     ptuple n (ts ++ rest) = Ok (l, rest))
  /\ (forall m ts, otoks m ts -> forall rest n first, 2 * List.length ts + 1 <= n ->
     pobject n first (ts ++ rest) = Ok (m, rest)).
Proof.
  apply toks_ind.
  - intros z rest [|n] R L; [cbn in L; lia|]. reflexivity.
  - intros z rest [|n] R L; [cbn in L; lia|]. reflexivity.
  - intros dm dk rest [|n] R L; [cbn in L; lia|]. reflexivity.
  - intros dm dk rest [|n] R L; [cbn in L; lia|]. reflexivity.
  - intros s rest [|n] R L; [cbn in L; lia|]. reflexivity.
  - intros x rest [|n] R L; [cbn in L; lia|].
    destruct rest as [|[] rest]; try contradiction; reflexivity.
  - intros f rest [|n] R L; [cbn in L; lia|]. reflexivity.
  - intros l ts _ IH rest [|n] R L; [cbn in L; lia|]. cbn [app pexpr].
    rewrite IH by (cbn [List.length] in L; lia). reflexivity.
  - intros m ts _ IH rest [|n] R L; [cbn in L; lia|]. cbn [app pexpr].
    rewrite IH by (cbn [List.length] in L; lia). reflexivity.
  - intros rest [|n] L; [cbn in L; lia|]. reflexivity.
  - intros l ts _ IH rest [|n] L; [lia|].
    rewrite <- (IH rest (S n)) by (cbn [List.length] in L; lia). reflexivity.
  - intros e ts H IH rest [|n] L; [lia|].
    rewrite app_length in L. cbn [List.length] in L.
    specialize (IH (TNl :: TRBrack :: rest) n I ltac:(lia)).
    rewrite <- app_assoc. change ([TNl; TRBrack] ++ rest)%list with (TNl :: TRBrack :: rest).
    cbn [ptuple].
    destruct (etoks_head e ts H) as (t & r & -> & H1 & H2 & H3 & H4 & H5). cbn [app] in *.
    destruct t; try congruence; cbn [skip_nl]; rewrite IH; reflexivity.
  - intros e ts H IH rest [|n] L; [lia|].
    rewrite app_length in L. cbn [List.length] in L.
    specialize (IH (TRBrack :: rest) n I ltac:(lia)).
    rewrite <- app_assoc. change ([TRBrack] ++ rest)%list with (TRBrack :: rest).
    cbn [ptuple].
    destruct (etoks_head e ts H) as (t & r & -> & H1 & H2 & H3 & H4 & H5). cbn [app] in *.
    destruct t; try congruence; cbn [skip_nl]; rewrite IH; reflexivity.
  - intros e l ts ts' H IH _ IH' rest [|n] L; [lia|].
    rewrite app_length in L. cbn [List.length] in L.
    specialize (IH (TComma :: ts' ++ rest)%list n I ltac:(lia)).
    specialize (IH' rest n ltac:(lia)).
    rewrite <- app_assoc. cbn [app]. cbn [ptuple].
    destruct (etoks_head e ts H) as (t & r & -> & H1 & H2 & H3 & H4 & H5). cbn [app] in *.
    destruct t; try congruence; cbn [skip_nl]; rewrite IH; cbn [bindr snd fst skip_nl]; rewrite IH'; reflexivity.
  - intros rest [|n] first L; [cbn in L; lia|]. reflexivity.
  - intros m ts _ IH rest [|n] first L; [lia|].
    rewrite <- (IH rest (S n) first) by (cbn [List.length] in L; lia). reflexivity.
  - intros k e m ts ts' Hk H IH _ IH' rest [|n] first L; [lia|].
    cbn [List.length] in L. rewrite app_length in L. cbn [List.length] in L.
    specialize (IH (TNl :: ts' ++ rest)%list n I ltac:(lia)).
    specialize (IH' rest n false ltac:(lia)).
    cbn [app]. rewrite <- app_assoc. cbn [app]. cbn [pobject skip_nl].
    destruct (String.eqb_spec k "for") as [E|_]; [contradiction|]. rewrite andb_false_r.
    rewrite IH. cbn [bindr snd fst]. rewrite IH'. reflexivity.
Qed.

Lemma plabels_strings : forall ls rest,
  plabels (map TStr ls ++ TLBrace :: rest) = Ok (ls, rest).
Proof.
  induction ls as [|l ls IH]; intros rest; [reflexivity|].
  cbn [map app plabels]. rewrite IH. reflexivity.
Qed.

Lemma parse_body :
  (forall nested its ts, btoks nested its ts -> forall rest n,
     (nested = false -> rest = []) -> 2 * List.length ts + 1 <= n ->
     pbody n nested (ts ++ rest) = Ok (its, rest))
  /\ (forall i ts, itoks i ts -> forall nested its r rest n bound,
     (forall k, In k (attr_names [i]) -> ~ In k (attr_names its)) ->
     (forall n', bound <= n' -> pbody n' nested r = Ok (its, rest)) ->
     2 * List.length ts + bound + 1 <= n ->
     pbody n nested (ts ++ TNl :: r) = Ok (i :: its, rest)).
Proof.
  apply btoks_mut.
  - intros n rest m Hr L. destruct m as [|m]; [lia|].
    destruct n; [reflexivity|]. rewrite (Hr eq_refl). reflexivity.
  - intros n its ts _ IH rest m Hr L. destruct m as [|m]; [lia|].
    cbn [app pbody]. apply IH; [exact Hr|]. cbn [List.length] in L. lia.
  - intros n i its ts ts' _ IHi _ IHb Hn rest m Hr L.
    rewrite app_length in L. cbn [List.length] in L.
    rewrite <- app_assoc. cbn [app].
    apply IHi with (bound := 2 * List.length ts' + 1); [exact Hn| |lia].
    intros n' L'. apply IHb; [exact Hr|exact L'].
  - intros k e ts H nested its r rest n bound Hn Hb L. destruct n as [|n]; [lia|].
    cbn [List.length] in L. cbn [app pbody].
    rewrite (proj1 parse_toks e ts H (TNl :: r) n I) by lia. cbn [bindr snd fst].
    rewrite Hb by lia. cbn [bindr snd fst].
    destruct (in_dec string_dec k (attr_names its)) as [I0|_]; [|reflexivity].
    exfalso. exact (Hn k (or_introl eq_refl) I0).
  - intros k ls b ts _ IH nested its r rest n bound Hn Hb L. destruct n as [|n]; [lia|].
    cbn [List.length] in L. rewrite app_length in L. cbn [List.length] in L.
    specialize (IH (TNl :: r) n ltac:(discriminate) ltac:(cbn [List.length]; lia)).
    cbn [app] in IH |- *. rewrite <- app_assoc. cbn [app].
    assert (P := plabels_strings ls (TNl :: ts ++ TNl :: r)).
    cbn [pbody].
    assert (G : forall x, pbody (S n) nested (TIdent k :: x) = match x with TEq :: _ => pbody (S n) nested (TIdent k :: x) | _ =>
      do p <- plabels x;
      do b <- block_body (pbody n true) n (snd p);
      match snd b with
        | TNl :: r1 =>
          do q <- pbody n nested r1;
          Ok (IBlock k (fst p) (fst b) :: fst q, snd q)
        | [] => if nested then Err "syntax: unclosed block" else Ok ([IBlock k (fst p) (fst b)], [])
        | _ => Err "syntax: missing newline after block definition"
        end end).
    { intros x. destruct x as [|[] x]; reflexivity. }
    match goal with |- ?a = _ => change a with (pbody (S n) nested (TIdent k :: (map TStr ls ++ TLBrace :: TNl :: ts ++ TNl :: r)%list)) end.
    rewrite G.
    assert (Q : match (map TStr ls ++ TLBrace :: TNl :: ts ++ TNl :: r)%list with TEq :: _ => False | _ => True end).
    { destruct ls; exact I. }
    destruct (map TStr ls ++ TLBrace :: TNl :: ts ++ TNl :: r)%list as [|[] x]; try contradiction;
      rewrite P; cbn [bindr snd fst block_body]; rewrite IH; cbn [bindr snd fst]; rewrite Hb by lia; reflexivity.
Qed.

(* The body of a block stands in lines or on one line. *)
Definition opens_body (r : list token) : Prop := match r with TNl :: _ | TRBrace :: _ => True | _ => False end.
Lemma block_body_lines : forall f n ts, opens_body ts -> block_body f n ts = f ts.
Proof. intros f n [|[] ts] H; try contradiction; reflexivity. Qed.
Lemma block_body_inv : forall f n ts b R, block_body f n ts = Ok (b, R) ->
  (opens_body ts /\ f ts = Ok (b, R)) \/
  exists k e r, ts = TIdent k :: TEq :: r /\ pexpr n r = Ok (e, TRBrace :: R) /\ b = [IAttr k e].
Proof.
  intros f n ts b R H.
  assert (L : one_line n ts = Ok (b, R) -> exists k e r, ts = TIdent k :: TEq :: r /\ pexpr n r = Ok (e, TRBrace :: R) /\ b = [IAttr k e]).
  { clear H. intro H. destruct ts as [|[] [|[] r]]; try discriminate H. cbn [one_line] in H. apply bindr_Ok in H. destruct H as ([e r1] & P & H). cbn [fst snd] in H.
    destruct r1 as [|[] r1]; try discriminate H. exists s, e, r. replace R with r1 by congruence. split; [reflexivity|]. split; [exact P|congruence]. }
  destruct ts as [|[] ts]; try discriminate H; first [left; split; [exact I|exact H]|right; apply L; exact H].
Qed.

(* The parser never yields an attribute twice. *)
Lemma pbody_distinct : forall n nested ts its rest,
  pbody n nested ts = Ok (its, rest) -> distinct_attrs its.
Proof.
  induction n as [|n IH]; intros nested ts its rest H; [discriminate|].
  assert (N : distinct_attrs []) by (constructor; [constructor|intros t ls b []]).
  assert (A : forall k e its, ~ In k (attr_names its) -> distinct_attrs its -> distinct_attrs (IAttr k e :: its)).
  { intros k e l Hk D. destruct D as [l D1 D2]. constructor.
    - cbn. constructor; assumption.
    - intros t ls b [X|X]; [discriminate|exact (D2 _ _ _ X)]. }
  assert (B : forall k ls b its, distinct_attrs b -> distinct_attrs its -> distinct_attrs (IBlock k ls b :: its)).
  { intros k ls b l Hb D. destruct D as [l D1 D2]. constructor.
    - exact D1.
    - intros t ls' b' [X|X]; [injection X as -> -> ->; exact Hb|exact (D2 _ _ _ X)]. }
  assert (Blk : forall k x,
    (do p <- plabels x;
      do b <- block_body (pbody n true) n (snd p);
      match snd b with
        | TNl :: r1 =>
          do q <- pbody n nested r1;
          Ok (IBlock k (fst p) (fst b) :: fst q, snd q)
        | [] => if nested then Err "syntax: unclosed block" else Ok ([IBlock k (fst p) (fst b)], [])
        | _ => Err "syntax: missing newline after block definition"
        end) = Ok (its, rest) -> distinct_attrs its).
  { intros k x Hx. apply bindr_Ok in Hx. destruct Hx as (p & _ & Hx).
    assert (Hy : exists b, distinct_attrs (fst b) /\
      match snd b with
        | TNl :: r1 =>
          do q <- pbody n nested r1;
          Ok (IBlock k (fst p) (fst b) :: fst q, snd q)
        | [] => if nested then Err "syntax: unclosed block" else Ok ([IBlock k (fst p) (fst b)], [])
        | _ => Err "syntax: missing newline after block definition"
        end = Ok (its, rest)).
    { apply bindr_Ok in Hx. destruct Hx as (b & Hb & Hx). exists b. split; [|exact Hx].
      destruct b as [b rb]. apply block_body_inv in Hb as [(_ & Hb)|(k' & e & r & _ & _ & ->)]; [exact (IH _ _ _ _ Hb)|].
      apply A; [intros []|exact N]. }
    destruct Hy as ([b rb] & Hb & Hy). cbn [snd fst] in Hb, Hy.
    destruct rb as [|[] r]; try discriminate.
    - destruct nested; [discriminate|]. injection Hy as <- _. apply B; assumption.
    - apply bindr_Ok in Hy. destruct Hy as ([q rq] & Hq & Hy). injection Hy as <- _.
      apply B; [exact Hb|]. exact (IH _ _ _ _ Hq). }
  destruct ts as [|t ts]; cbn [pbody] in H.
  { destruct nested; [discriminate|]. injection H as <- _. exact N. }
  destruct t; try discriminate.
  - destruct ts as [|t ts]; [exact (Blk s [] H)|].
    destruct t; try (exact (Blk s _ H)).
    apply bindr_Ok in H. destruct H as ([e r] & _ & H). cbn [snd fst] in H.
    destruct r as [|[] r]; try discriminate.
    + destruct nested; [discriminate|]. injection H as <- _. apply A; [intros []|exact N].
    + apply bindr_Ok in H. destruct H as ([q rq] & Hq & H). cbn [snd fst] in H.
      destruct (in_dec _ _ _) as [|Hn]; [discriminate|]. injection H as <- _.
      apply A; [exact Hn|exact (IH _ _ _ _ Hq)].
  - destruct nested; [|discriminate]. injection H as <- _. exact N.
  - exact (IH _ _ _ _ H).
Qed.

Lemma parse_distinct : forall s its, parse_config s = Ok its -> distinct_attrs its.
Proof.
  intros s its H. unfold parse_config in H. apply bindr_Ok in H. destruct H as (ts & _ & H).
  apply bindr_Ok in H. destruct H as ([x r] & H & E). injection E as <-.
  exact (pbody_distinct _ _ _ _ _ H).
Qed.
