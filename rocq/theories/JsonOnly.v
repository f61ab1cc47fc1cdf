(* Proofs: encoding/json reads nothing but JSON texts. *)

From Verif Require Import Base CtyModel CtySpec CtyProofs HclModel HclSpec HclProofs JsonModel JsonSpec JsonProofs HclGrammar HclLex JsonText.
From Coq Require Import Lia.
Local Open Scope nat_scope.

(* ----- tokens ----- *)

Inductive jtoken_text : jtoken -> string -> Prop :=
| jx_str t s : string_text t s -> jtoken_text (JStr s) t
| jx_num t z : number_text t z -> jtoken_text (JNum z) t
| jx_word w : jtoken_text (JWord w) w
| jx_sym c : jtoken_text (JSym c) (str1 c).
Inductive jspelled : list jtoken -> string -> Prop :=
| js_end b : blank b -> jspelled [] b
| js_more b t x ts r : blank b -> jtoken_text t x -> jspelled ts r -> jspelled (t :: ts) (b +++ x +++ r).

Lemma no_blanks : blank "".
Proof. intros [|i] c H; discriminate H. Qed.
Lemma blank_more : forall c s, json_space c = true -> blank s -> blank (String c s).
Proof.
  intros c s C H [|i] d G; [|exact (H i d G)]. cbn in G. injection G as <-. unfold json_space in C. rewrite !orb_true_iff, !Ascii.eqb_eq in C. cbn. intuition congruence.
Qed.
Lemma jspelled_blank : forall c ts s, json_space c = true -> jspelled ts s -> jspelled ts (String c s).
Proof.
  intros c ts s C H. destruct H as [b B|b t x ts r B T H]; [apply js_end, blank_more; assumption|].
  apply (js_more (String c b)); [apply blank_more; assumption|exact T|exact H].
Qed.
Lemma jspelled_one : forall t x ts r, jtoken_text t x -> jspelled ts r -> jspelled (t :: ts) (x +++ r).
Proof. intros t x ts r T H. exact (js_more "" t x ts r no_blanks T H). Qed.

(* ----- what is left to read, in every state ----- *)

Definition sign (neg : bool) (z : Z) : Z := if neg then (- z)%Z else z.
Definition jrest (st : jstate) (s : string) (ts : list jtoken) : Prop :=
  match st with
  | JNone => jspelled ts s
  | JInWord acc => exists w r ts', s = w +++ r /\ ts = JWord (acc +++ w) :: ts' /\ jspelled ts' r
  | JMinus => exists w z r ts', s = w +++ r /\ whole_text w z /\ ts = JNum (- z) :: ts' /\ jspelled ts' r
  | JInNum neg z more => exists w z' r ts', s = w +++ r /\ digits z w z' /\ (more = false -> w = "") /\ ts = JNum (sign neg z') :: ts' /\ jspelled ts' r
  | JInStr acc => exists b v r ts', s = b +++ quote +++ r /\ chars_text b v /\ ts = JStr (acc +++ v) :: ts' /\ jspelled ts' r
  | JEsc acc => exists e c b v r ts', s = e +++ b +++ quote +++ r /\ char_text ("\" +++ e) c /\ chars_text b v /\ ts = JStr (acc +++ String c v) :: ts' /\ jspelled ts' r
  | JHex acc n x => 4 <= n \/ exists e c b v r ts', s = e +++ b +++ quote +++ r /\
      (exists y, Forall2 (fun i d => hex_value i = Some d) (list_ascii_of_string e) y /\ List.length y = 4 - n /\ fold_left (fun a d => a * 16 + d) y x = nat_of_ascii c) /\
      nat_of_ascii c < 128 /\ chars_text b v /\ ts = JStr (acc +++ String c v) :: ts' /\ jspelled ts' r
  end.

Lemma hex_of : forall c d, hex_value c = Some d -> hex_is c d.
Proof.
  intros c d H. unfold hex_is. destruct c as [[] [] [] [] [] [] [] []]; try discriminate H; cbn in H; injection H as <-; cbn; (left; reflexivity) || (right; reflexivity).
Qed.

Lemma jstep0_rest : forall c p s ts, jstep0 c = Ok p -> jrest (snd p) s ts -> jspelled (fst p ++ ts) (String c s).
Proof.
  intros c p s ts H R. unfold jstep0 in H. destruct (json_space c) eqn:B; [injection H as <-; apply jspelled_blank; assumption|].
  destruct (symbol c); [injection H as <-; apply (jspelled_one (JSym c) (str1 c)); [constructor|exact R]|].
  destruct (Ascii.eqb_spec c """") as [->|_].
  { injection H as <-. destruct R as (b & v & r & ts' & -> & C & -> & S).
    assert (X : String """" (b +++ quote +++ r) = (quote +++ b +++ quote) +++ r) by (unfold quote; cbn [String.append]; rewrite append_assoc; reflexivity).
    rewrite X. apply jspelled_one; [|exact S]. constructor. exists b. auto. }
  destruct (Ascii.eqb_spec c "-") as [->|_].
  { injection H as <-. destruct R as (w & z & r & ts' & -> & W & -> & S). apply (jspelled_one (JNum (- z)) (String "-" w)); [|exact S].
    constructor. right. exists w, z. auto. }
  destruct (digit_char c) eqn:D.
  { injection H as <-. destruct R as (w & z' & r & ts' & -> & G & M & -> & S). apply (jspelled_one (JNum z') (String c w)); [|exact S].
    constructor. left. split; [discriminate|]. split; [apply (dg_more 0 c (digit_value c)); [apply digit_is; exact D|exact G]|].
    intros r0 X. injection X as -> ->. apply M. reflexivity. }
  destruct (letter_char c); [|discriminate H]. injection H as <-. destruct R as (w & r & ts' & -> & -> & S).
  apply (jspelled_one (JWord (String c w)) (String c w)); [constructor|exact S].
Qed.

Theorem jscan_sound : forall s st ts, jscan st s = Ok ts -> jrest st s ts.
Proof.
  induction s as [|c s IH]; intros st ts H.
  - cbn [jscan] in H. destruct st; try discriminate H; injection H as <-; cbn [jrest].
    + apply js_end, no_blanks.
    + exists "", "", []. rewrite (append_nil_r acc). repeat split. apply js_end, no_blanks.
    + exists "", z, "", []. repeat split; [constructor|apply js_end, no_blanks].
  - cbn [jscan] in H. apply bindr_Ok in H. destruct H as (p & P & H). apply bindr_Ok in H. destruct H as (ts' & Q & H).
    injection H as <-. apply IH in Q. destruct st as [|acc| |neg z more|acc|acc|acc n x]; cbn [jstep] in P.
    + apply jstep0_rest; assumption.
    + destruct (letter_char c).
      * injection P as <-. destruct Q as (w & r & ts & -> & -> & S). exists (String c w), r, ts. rewrite append_assoc. repeat split. exact S.
      * apply bindr_Ok in P. destruct P as (q & P & X). injection X as <-. exists "", (String c s), (fst q ++ ts')%list. rewrite (append_nil_r acc). repeat split.
        apply jstep0_rest; assumption.
    + destruct (digit_char c) eqn:D; [|discriminate P]. injection P as <-. destruct Q as (w & z' & r & ts & -> & G & M & -> & S).
      exists (String c w), z', r, ts. split; [reflexivity|]. split; [|split; [reflexivity|exact S]]. split; [discriminate|].
      split; [apply (dg_more 0 c (digit_value c)); [apply digit_is; exact D|exact G]|]. intros r0 X. injection X as -> ->. apply M. reflexivity.
    + destruct (digit_char c) eqn:D.
      * destruct more; [|discriminate P]. injection P as <-. destruct Q as (w & z' & r & ts & -> & G & M & -> & S).
        exists (String c w), z', r, ts. repeat split; [apply (dg_more z c (digit_value c)); [apply digit_is; exact D|exact G]|discriminate|exact S].
      * destruct (Ascii.eqb c "." || Ascii.eqb c "e" || Ascii.eqb c "E"); [discriminate P|]. apply bindr_Ok in P. destruct P as (q & P & X). injection X as <-.
        exists "", z, (String c s), (fst q ++ ts')%list. repeat split; [constructor|]. apply jstep0_rest; assumption.
    + destruct (Ascii.eqb_spec c """") as [->|Nq]; [injection P as <-; exists "", "", s, ts'; rewrite (append_nil_r acc); repeat split; [constructor|exact Q]|].
      destruct (Ascii.eqb_spec c "\") as [->|Nb].
      * injection P as <-. destruct Q as (e & d & b & v & r & ts & -> & C & B & -> & S). exists ("\" +++ e +++ b), (String d v), r, ts.
        cbn [String.append]. rewrite !append_assoc. repeat split; [|exact S]. exact (cs_more (String "\" e) d b v C B).
      * destruct (Nat.ltb_spec (nat_of_ascii c) 32) as [L|L]; [discriminate P|]. destruct (Nat.ltb_spec (nat_of_ascii c) 128) as [U|U]; [|discriminate P].
        injection P as <-. destruct Q as (b & v & r & ts & -> & B & -> & S). exists (String c b), (String c v), r, ts. rewrite append_assoc. repeat split; [|exact S].
        apply (cs_more (String c "") c b v); [apply ct_plain; [lia|exact Nq|exact Nb]|exact B].
    + assert (G : forall d, In (c, d) short_escapes -> p = ([], JInStr (acc +++ str1 d)) -> jrest (JEsc acc) (String c s) (fst p ++ ts')).
      { intros d I ->. destruct Q as (b & v & r & ts & -> & B & -> & S). exists (str1 c), d, b, v, r, ts. rewrite append_assoc. repeat split; [apply ct_short; exact I|exact B|exact S]. }
      destruct (Ascii.eqb_spec c """") as [->|_]; [injection P as <-; apply (G """"%char); [cbn; tauto|reflexivity]|].
      destruct (Ascii.eqb_spec c "\") as [->|_]; [injection P as <-; apply (G "\"%char); [cbn; tauto|reflexivity]|].
      destruct (Ascii.eqb_spec c "/") as [->|_]; [injection P as <-; apply (G "/"%char); [cbn; tauto|reflexivity]|].
      destruct (Ascii.eqb_spec c "b") as [->|_]; [injection P as <-; apply (G "008"%char); [cbn; tauto|reflexivity]|].
      destruct (Ascii.eqb_spec c "f") as [->|_]; [injection P as <-; apply (G "012"%char); [cbn; tauto|reflexivity]|].
      destruct (Ascii.eqb_spec c "n") as [->|_]; [injection P as <-; apply (G "010"%char); [cbn; tauto|reflexivity]|].
      destruct (Ascii.eqb_spec c "r") as [->|_]; [injection P as <-; apply (G "013"%char); [cbn; tauto|reflexivity]|].
      destruct (Ascii.eqb_spec c "t") as [->|_]; [injection P as <-; apply (G "009"%char); [cbn; tauto|reflexivity]|].
      destruct (Ascii.eqb_spec c "u") as [->|_]; [|discriminate P]. injection P as <-. clear G.
      destruct Q as [Q|(e & d & b & v & r & ts & -> & (y & F & L & V) & U & B & -> & S)]; [lia|].
      exists ("u" +++ e), d, b, v, r, ts. split; [rewrite append_assoc; reflexivity|]. split; [|auto].
      destruct y as [|y0 [|y1 [|y2 [|y3 [|]]]]]; try discriminate L.
      destruct e as [|e0 [|e1 [|e2 [|e3 [|]]]]]; cbn [list_ascii_of_string] in F;
        repeat match goal with H : Forall2 _ _ _ |- _ => inversion H; subst; clear H end.
      cbn [fold_left] in V.
      assert (Z0 : y0 = 0) by lia. assert (Z1 : y1 = 0) by lia. subst y0 y1.
      assert (E0 : e0 = "0"%char) by (match goal with H : hex_value e0 = Some 0 |- _ => clear - H; destruct e0 as [[] [] [] [] [] [] [] []]; try discriminate H; reflexivity end).
      assert (E1 : e1 = "0"%char) by (match goal with H : hex_value e1 = Some 0 |- _ => clear - H; destruct e1 as [[] [] [] [] [] [] [] []]; try discriminate H; reflexivity end).
      subst e0 e1. apply (ct_hex e2 e3 y2 y3 d); [apply hex_of; assumption|apply hex_of; assumption|lia|exact U].
    + destruct (Nat.lt_ge_cases n 4) as [Ln|Ln]; [right|left; exact Ln].
      destruct (hex_value c) as [d|] eqn:Hx; [|discriminate P]. destruct (Nat.eqb_spec n 3) as [->|N3].
      * destruct (Nat.ltb_spec (x * 16 + d) 128) as [U|U]; [|discriminate P]. injection P as <-. destruct Q as (b & v & r & ts & -> & B & -> & S).
        exists (str1 c), (ascii_of_nat (x * 16 + d)), b, v, r, ts. rewrite append_assoc. rewrite nat_ascii_embedding by lia.
        split; [reflexivity|]. split; [exists [d]; split; [constructor; [exact Hx|constructor]|split; reflexivity]|auto].
      * injection P as <-. destruct Q as [Q|(e & d' & b & v & r & ts & -> & (y & F & L & V) & U & B & -> & S)]; [lia|].
        exists (String c e), d', b, v, r, ts. split; [reflexivity|]. split; [|auto]. exists (d :: y). cbn [list_ascii_of_string fold_left List.length].
        split; [constructor; assumption|]. split; [lia|exact V].
Qed.

(* ----- values ----- *)

Lemma spelled_inv : forall t ts s, jspelled (t :: ts) s -> exists b x r, s = b +++ x +++ r /\ blank b /\ jtoken_text t x /\ jspelled ts r.
Proof. intros t ts s H. inversion H as [|b t0 x ts0 r B T R]; subst. exists b, x, r. auto. Qed.
Lemma spelled_sym_inv : forall c ts s, jspelled (JSym c :: ts) s -> exists b r, s = b +++ String c r /\ blank b /\ jspelled ts r.
Proof. intros c ts s H. destruct (spelled_inv _ _ _ H) as (b & x & r & -> & B & T & R). inversion T; subst. exists b, r. auto. Qed.

Lemma jvalue_sound : forall n,
  (forall ts w rest, jvalue n ts = Ok (w, rest) -> forall s, jspelled ts s -> exists b t r v,
     s = b +++ t +++ r /\ blank b /\ json_text t v /\ json_view v w /\ jspelled rest r)
  /\ (forall ts ws rest, jelems n ts = Ok (ws, rest) -> forall s, jspelled ts s -> exists t r l,
     s = t +++ "]" +++ r /\ elems_text t l /\ Forall2 json_view l ws /\ jspelled rest r)
  /\ (forall m0 ts w rest, jmembers n m0 ts = Ok (w, rest) -> forall s, jspelled ts s -> exists t r l ws,
     s = t +++ "}" +++ r /\ members_text t l /\ Forall2 member_view l ws /\ w = puts ws m0 /\ jspelled rest r).
Proof.
  induction n as [|n (IHv & IHe & IHm)]; [repeat split; intros; discriminate|]. repeat split.
  - intros ts w rest H s S. cbn [jvalue] in H. destruct ts as [|[x|z|x|c] ts]; try discriminate H.
    + destruct (spelled_inv _ _ _ S) as (b & t & r & -> & B & T & R). inversion T; subst. injection H as <- <-. exists b, t, r, (NStr x). repeat split; [exact B|constructor; assumption|constructor|exact R].
    + destruct (spelled_inv _ _ _ S) as (b & t & r & -> & B & T & R). inversion T; subst. apply bindr_Ok in H. destruct H as (v & V & H). injection H as <- <-.
      unfold json_number in V. destruct (round_to float64 (mkD z 0)) as [d|] eqn:E; [|discriminate V]. injection V as <-. exists b, t, r, (NInt z).
      repeat split; [exact B|constructor; [assumption|apply float64_range; eauto]| |exact R].
      constructor; [apply (round_to_representable float64 (mkD z 0) d good64 E)|exact (round_to_nearest float64 (mkD z 0) d good64 E)].
    + destruct (spelled_inv _ _ _ S) as (b & t & r & -> & B & T & R). assert (X : t = x) by (inversion T; reflexivity). subst t.
      destruct (String.eqb_spec x "null") as [->|_]; [injection H as <- <-; exists b, "null", r, NNil; repeat split; try exact B; try exact R; constructor|].
      destruct (String.eqb_spec x "true") as [->|_]; [injection H as <- <-; exists b, "true", r, (NBool true); repeat split; try exact B; try exact R; constructor|].
      destruct (String.eqb_spec x "false") as [->|_]; [injection H as <- <-; exists b, "false", r, (NBool false); repeat split; try exact B; try exact R; constructor|discriminate H].
    + assert (Lst : c = "["%char -> (do p <- jelems n ts; Ok (NList (fst p), snd p)) = Ok (w, rest) -> exists b t r v,
         s = b +++ t +++ r /\ blank b /\ json_text t v /\ json_view v w /\ jspelled rest r).
      { intros -> X. clear H. destruct (spelled_sym_inv _ _ _ S) as (b & r & -> & B & R). apply bindr_Ok in X. destruct X as ((ws & r1) & P & X). injection X as <- <-.
        destruct (IHe _ _ _ P r R) as (t & r2 & l & -> & E & V & R2). exists b, ("[" +++ t +++ "]"), r2, (NList l). rewrite !append_assoc. cbn [String.append].
        repeat split; [exact B|apply jt_list; exact E|constructor; exact V|exact R2]. }
      assert (Mp : c = "{"%char -> (do p <- jmembers n [] ts; Ok (NMap (fst p), snd p)) = Ok (w, rest) -> exists b t r v,
         s = b +++ t +++ r /\ blank b /\ json_text t v /\ json_view v w /\ jspelled rest r).
      { intros -> X. clear H Lst. destruct (spelled_sym_inv _ _ _ S) as (b & r & -> & B & R). apply bindr_Ok in X. destruct X as ((m & r1) & P & X). injection X as <- <-.
        destruct (IHm _ _ _ _ P r R) as (t & r2 & l & ws & -> & E & V & -> & R2). exists b, ("{" +++ t +++ "}"), r2, (NMap (puts l [])). rewrite !append_assoc. cbn [String.append].
        assert (Pl : forall q k, lookup k (puts q []) = lookup k (rev q)) by (intros q k; rewrite puts_lookup; destruct (lookup k (rev q)); reflexivity).
        repeat split; [exact B|apply (jt_map t l); [exact E|apply puts_nodup; constructor|apply Pl]| |exact R2].
        apply Forall2_rev' in V. constructor; [apply puts_nodup; constructor|apply puts_nodup; constructor| |]; intros k; rewrite !Pl; apply (view_lookup _ _ V k). }
      destruct (ascii_dec c "[") as [->|N1]; [|destruct (ascii_dec c "{") as [->|N2]].
      * destruct ts as [|[| | |d] ts]; try (apply Lst; [reflexivity|exact H]). destruct (ascii_dec d "]") as [->|N]; [|apply Lst; [reflexivity|]].
        -- injection H as <- <-. destruct (spelled_sym_inv _ _ _ S) as (b & r & -> & B & R). destruct (spelled_sym_inv _ _ _ R) as (b1 & r1 & -> & B1 & R1).
           exists b, ("[" +++ b1 +++ "]"), r1, (NList []). rewrite !append_assoc. cbn [String.append]. repeat split; [exact B|constructor; exact B1|constructor; constructor|exact R1].
        -- destruct d as [[] [] [] [] [] [] [] []]; try exact H. congruence.
      * destruct ts as [|[| | |d] ts]; try (apply Mp; [reflexivity|exact H]). destruct (ascii_dec d "}") as [->|N]; [|apply Mp; [reflexivity|]].
        -- injection H as <- <-. destruct (spelled_sym_inv _ _ _ S) as (b & r & -> & B & R). destruct (spelled_sym_inv _ _ _ R) as (b1 & r1 & -> & B1 & R1).
           exists b, ("{" +++ b1 +++ "}"), r1, (NMap []). rewrite !append_assoc. cbn [String.append]. repeat split; [exact B|constructor; exact B1| |exact R1].
           constructor; [constructor|constructor|tauto|discriminate].
        -- destruct d as [[] [] [] [] [] [] [] []]; try exact H. congruence.
      * destruct c as [[] [] [] [] [] [] [] []]; try discriminate H; congruence.
  - intros ts ws rest H s S. cbn [jelems] in H. apply bindr_Ok in H. destruct H as ((w & r) & P & H). cbn [fst snd] in H.
    destruct (IHv _ _ _ P s S) as (b & t & r1 & v & -> & B & T & V & R). destruct r as [|[| | |c] r]; try discriminate H.
    destruct (ascii_dec c "]") as [->|N1]; [|destruct (ascii_dec c ",") as [->|N2]].
    + injection H as <- <-. destruct (spelled_sym_inv _ _ _ R) as (b' & r2 & -> & B' & R2). exists (b +++ t +++ b'), r2, [v]. rewrite !append_assoc. cbn [String.append].
      repeat split; [constructor; assumption|constructor; [exact V|constructor]|exact R2].
    + apply bindr_Ok in H. destruct H as ((ws' & r2) & P2 & H). injection H as <- <-. destruct (spelled_sym_inv _ _ _ R) as (b' & r3 & -> & B' & R3).
      destruct (IHe _ _ _ P2 r3 R3) as (t2 & r4 & l & -> & E & V2 & R4). exists (b +++ t +++ b' +++ "," +++ t2), r4, (v :: l). rewrite !append_assoc. cbn [String.append].
      repeat split; [apply (et_more b t v b' t2 l); assumption|constructor; assumption|exact R4].
    + destruct c as [[] [] [] [] [] [] [] []]; try discriminate H; congruence.
  - intros m0 ts w rest H s S. cbn [jmembers] in H. destruct ts as [|[k| | |] ts]; try discriminate H. destruct ts as [|[| | |c] ts]; try discriminate H.
    destruct (ascii_dec c ":") as [->|N]; [|destruct c as [[] [] [] [] [] [] [] []]; try discriminate H; congruence].
    apply bindr_Ok in H. destruct H as ((w1 & r) & P & H). cbn [fst snd] in H.
    destruct (spelled_inv _ _ _ S) as (b & q & s1 & -> & B & Q & S1). inversion Q; subst. destruct (spelled_sym_inv _ _ _ S1) as (b1 & s2 & -> & B1 & S2).
    destruct (IHv _ _ _ P s2 S2) as (b2 & t & r1 & v & -> & B2 & T & V & R). destruct r as [|[| | |c] r]; try discriminate H.
    destruct (ascii_dec c "}") as [->|N1]; [|destruct (ascii_dec c ",") as [->|N2]].
    + injection H as <- <-. destruct (spelled_sym_inv _ _ _ R) as (b3 & r2 & -> & B3 & R2). exists (b +++ q +++ b1 +++ ":" +++ b2 +++ t +++ b3), r2, [(k, v)], [(k, w1)].
      rewrite !append_assoc. cbn [String.append]. rewrite ?append_assoc. cbn [String.append]. repeat split; [constructor; constructor; assumption|constructor; [split; [reflexivity|exact V]|constructor]|exact R2].
    + destruct (spelled_sym_inv _ _ _ R) as (b3 & r2 & -> & B3 & R2). destruct (IHm _ _ _ _ H r2 R2) as (t2 & r4 & l & ws & -> & E & V2 & -> & R4).
      exists ((b +++ q +++ b1 +++ ":" +++ b2 +++ t +++ b3) +++ "," +++ t2), r4, ((k, v) :: l), ((k, w1) :: ws).
      split; [rewrite !append_assoc; cbn [String.append]; rewrite ?append_assoc; reflexivity|]. repeat split; [|constructor; [split; [reflexivity|exact V]|exact V2]|exact R4].
      apply (mt_more (b +++ q +++ b1 +++ ":" +++ b2 +++ t +++ b3) k v t2 l); [constructor; assumption|exact E].
    + destruct c as [[] [] [] [] [] [] [] []]; try discriminate H; congruence.
Qed.

Theorem document_only : forall s w, json_unmarshal s = Ok w ->
  (exists m, json_document s m /\ json_view (NMap m) w) \/ (w = NNilMap /\ exists b b', s = b +++ "null" +++ b' /\ blank b /\ blank b').
Proof.
  intros s w H. unfold json_unmarshal in H. apply bindr_Ok in H. destruct H as (ts & S & H). apply bindr_Ok in H. destruct H as ((v & r) & P & H).
  apply (jscan_sound s JNone) in S. destruct (proj1 (jvalue_sound _) _ _ _ P s S) as (b & t & r1 & x & -> & B & T & V & R).
  destruct v; destruct r; try discriminate H; inversion R as [b' B'|]; subst.
  - injection H as <-. inversion V; subst; inversion T; subst. right. split; [reflexivity|]. exists b, r1. auto.
  - injection H as <-. inversion V; subst. left. eexists. split; [|exact V]. exists b, t, r1. split; [reflexivity|]. split; [exact B|]. split; [exact T|exact B'].
Qed.
