(* encoding/json reads back what it writes. *)

From Verif Require Import Base CtyModel CtySpec CtyProofs CtyProofs2 HclModel HclSpec HclScan JsonModel JsonSpec.
From Coq Require Import Lia ZifyBool ZifyNat ZifyN Permutation.
Ltac Zify.zify_post_hook ::= Z.div_mod_to_equations.

(* ----- sorting by key ----- *)

Lemma put_perm : forall A k (x : A) l, Permutation (put_sorted k x l) ((k, x) :: l).
Proof.
  intros A k x l. induction l as [|[k' x'] l IH]; [apply Permutation_refl|]. cbn [put_sorted].
  destruct (String.leb k k'); [apply Permutation_refl|].
  apply perm_trans with ((k', x') :: (k, x) :: l); [apply perm_skip; exact IH|apply perm_swap].
Qed.
Lemma sort_perm : forall A (l : list (string * A)), Permutation (sort_keys l) l.
Proof.
  intros A l. induction l as [|[k x] l IH]; [apply perm_nil|]. cbn [sort_keys].
  apply perm_trans with ((k, x) :: sort_keys l); [apply put_perm|apply perm_skip; exact IH].
Qed.
Lemma sort_In : forall A (l : list (string * A)) kv, In kv (sort_keys l) <-> In kv l.
Proof.
  intros A l kv. split; apply Permutation_in; [apply sort_perm|apply Permutation_sym, sort_perm].
Qed.
Lemma sort_nodup : forall A (l : list (string * A)), NoDup (keys l) -> NoDup (keys (sort_keys l)).
Proof. intros A l N. apply (Permutation_NoDup (Permutation_sym (Permutation_map fst (sort_perm A l)))). exact N. Qed.

Definition on_snd {A B} (f : A -> B) (l : list (string * A)) : list (string * B) := map (fun kv => (fst kv, f (snd kv))) l.
Lemma keys_on : forall A B (f : A -> B) l, keys (on_snd f l) = keys l.
Proof. intros A B f l. unfold keys, on_snd. rewrite map_map. reflexivity. Qed.
Lemma sort_on : forall A B (f : A -> B) l, sort_keys (on_snd f l) = on_snd f (sort_keys l).
Proof.
  intros A B f l. assert (P : forall k x l, put_sorted k (f x) (on_snd f l) = on_snd f (put_sorted k x l)).
  { intros k x l0. induction l0 as [|[k' x'] l0 IH]; [reflexivity|]. unfold on_snd in *. cbn [map put_sorted fst snd].
    destruct (String.leb k k'); [reflexivity|]. rewrite IH. reflexivity. }
  induction l as [|[k x] l IH]; [reflexivity|]. change (on_snd f ((k, x) :: l)) with ((k, f x) :: on_snd f l).
  cbn [sort_keys]. rewrite IH. apply P.
Qed.
Lemma lookup_on : forall A B (f : A -> B) l k, lookup k (on_snd f l) = option_map f (lookup k l).
Proof.
  intros A B f l k. induction l as [|[k' x] l IH]; [reflexivity|]. cbn. destruct (eq_dec k k'); [reflexivity|exact IH].
Qed.
Lemma lookup_sort : forall A (l : list (string * A)) k, NoDup (keys l) -> lookup k (sort_keys l) = lookup k l.
Proof.
  intros A l k N. assert (N' := sort_nodup A l N). destruct (lookup k l) as [x|] eqn:E.
  - apply In_lookup; [exact N'|]. apply sort_In. apply lookup_In. exact E.
  - destruct (lookup k (sort_keys l)) as [x|] eqn:F; [|reflexivity]. apply lookup_In in F. apply (proj1 (sort_In _ _ _)) in F.
    apply (In_lookup _ _ _ N) in F. congruence.
Qed.

(* ----- scanning ----- *)

Definition jpush (ts : list jtoken) (r : result (list jtoken)) : result (list jtoken) :=
  do x <- r; Ok (ts ++ x)%list.
Lemma jpush_app : forall a b r, jpush a (jpush b r) = jpush (a ++ b) r.
Proof. intros a b [x| |]; cbn; [rewrite app_assoc|..]; reflexivity. Qed.

Fixpoint jsteps (st : jstate) (s : string) : option jstate :=
  match s with
  | "" => Some st
  | String c s' => match jstep st c with Ok ([], st') => jsteps st' s' | _ => None end
  end.
Lemma jsteps_scan : forall s st st' r, jsteps st s = Some st' -> jscan st (s +++ r) = jscan st' r.
Proof.
  induction s as [|c s IH]; intros st st' r H; [injection H as <-; reflexivity|].
  cbn [jsteps] in H. cbn [String.append jscan]. destruct (jstep st c) as [[[|] st1]| |]; try discriminate.
  cbn [bindr fst snd]. rewrite (IH _ _ _ H). destruct (jscan st' r); reflexivity.
Qed.
Lemma jsteps_app : forall a b st, jsteps st (a +++ b) = match jsteps st a with Some st' => jsteps st' b | None => None end.
Proof.
  induction a as [|c a IH]; intros b st; [reflexivity|]. cbn [String.append jsteps].
  destruct (jstep st c) as [[[|] st1]| |]; [apply IH|reflexivity..].
Qed.

Lemma char_steps : forall c acc, char_in 0 127 c = true ->
  jsteps (JInStr acc) (json_char c) = Some (JInStr (acc +++ str1 c)).
Proof.
  intros [[] [] [] [] [] [] [] []] acc H; try discriminate H; vm_compute; reflexivity.
Qed.
Lemma chars_steps : forall s acc, ascii_string s -> jsteps (JInStr acc) (json_chars s) = Some (JInStr (acc +++ s)).
Proof.
  induction s as [|c s IH]; intros acc A; [rewrite append_nil_r; reflexivity|].
  unfold ascii_string in A. cbn [all_chars] in A. apply andb_true_iff in A. destruct A as [A1 A2].
  cbn [json_chars]. rewrite jsteps_app, char_steps by exact A1. rewrite IH by exact A2. rewrite append_assoc. reflexivity.
Qed.
Lemma ascii_only_spec : forall s, ascii_string s -> ascii_only s = true.
Proof.
  induction s as [|c s IH]; intros A; [reflexivity|]. unfold ascii_string in A. cbn [all_chars] in A.
  apply andb_true_iff in A. destruct A as [A1 A2]. cbn [ascii_only]. rewrite (IH A2). unfold char_in in A1.
  apply andb_true_iff in A1. destruct A1 as [_ A1]. apply Nat.leb_le in A1. rewrite andb_true_r. apply Nat.ltb_lt. lia.
Qed.

Definition jend (c : ascii) : Prop := c = ","%char \/ c = "]"%char \/ c = "}"%char \/ json_space c = true.
Definition jend_first (s : string) : Prop := match s with "" => True | String c _ => jend c end.
Definition jscans0 (t : string) (ts : list jtoken) : Prop := forall s, jscan JNone (t +++ s) = jpush ts (jscan JNone s).
Definition jscans (t : string) (ts : list jtoken) : Prop :=
  forall s, jend_first s -> jscan JNone (t +++ s) = jpush ts (jscan JNone s).

Lemma jscans0_app : forall t u ts us, jscans0 t ts -> jscans0 u us -> jscans0 (t +++ u) (ts ++ us).
Proof. intros t u ts us H1 H2 s. rewrite append_assoc, H1, H2, jpush_app. reflexivity. Qed.
Lemma jscans_app0 : forall t u ts us, jscans t ts -> jend_first u -> u <> "" -> jscans0 u us -> jscans0 (t +++ u) (ts ++ us).
Proof.
  intros t u ts us H1 D Ne H2 s. rewrite append_assoc, H1, H2, jpush_app; [reflexivity|]. destruct u; [congruence|exact D].
Qed.
Lemma jscans0_app_scans : forall t u ts us, jscans0 t ts -> jscans u us -> jscans (t +++ u) (ts ++ us).
Proof. intros t u ts us H1 H2 s D. rewrite append_assoc, H1, (H2 s D), jpush_app. reflexivity. Qed.
Lemma jscans0_scans : forall t ts, jscans0 t ts -> jscans t ts.
Proof. intros t ts H s _. apply H. Qed.

Lemma jscans_sym : forall c, symbol c = true -> jscans0 (str1 c) [JSym c].
Proof.
  intros c H s. unfold str1. cbn [String.append jscan jstep]. unfold jstep0. rewrite H.
  replace (json_space c) with false; [reflexivity|].
  destruct c as [[] [] [] [] [] [] [] []]; try discriminate H; reflexivity.
Qed.

Lemma jscans_string : forall s, ascii_string s -> exists t, json_string s = Ok t /\ jscans0 t [JStr s].
Proof.
  intros s A. unfold json_string. rewrite ascii_only_spec by exact A. eexists. split; [reflexivity|].
  intros r. rewrite !append_assoc. unfold quote at 1. cbn [String.append jscan].
  change (jstep JNone """") with (Ok (@nil jtoken, JInStr "")). cbn [bindr fst snd].
  rewrite (jsteps_scan _ _ _ _ (chars_steps s "" A)). unfold quote. cbn [String.append jscan].
  change (jstep (JInStr s) """") with (Ok ([JStr s], JNone)). cbn [bindr fst snd]. destruct (jscan JNone r); reflexivity.
Qed.

Lemma jend_step : forall c, jend c -> digit_char c = false /\ letter_char c = false
  /\ (Ascii.eqb c "." || Ascii.eqb c "e" || Ascii.eqb c "E") = false.
Proof.
  intros c [->|[->|[->|H]]]; [repeat split..|]. destruct c as [[] [] [] [] [] [] [] []]; try discriminate H; repeat split.
Qed.
Lemma jscan_num_end : forall neg z more s, jend_first s ->
  jscan (JInNum neg z more) s = jpush [JNum (if neg then - z else z)] (jscan JNone s).
Proof.
  intros neg z more [|c s] D; [reflexivity|]. destruct (jend_step c D) as (D1 & D2 & D3).
  cbn [jscan jstep]. rewrite D1, D3. destruct (jstep0 c) as [[x y]| |]; cbn [bindr fst snd]; try reflexivity.
  destruct (jscan y s); reflexivity.
Qed.
Lemma jscan_word_end : forall w s, jend_first s -> jscan (JInWord w) s = jpush [JWord w] (jscan JNone s).
Proof.
  intros w [|c s] D; [reflexivity|]. destruct (jend_step c D) as (D1 & D2 & D3).
  cbn [jscan jstep]. rewrite D2. destruct (jstep0 c) as [[x y]| |]; cbn [bindr fst snd]; try reflexivity.
  destruct (jscan y s); reflexivity.
Qed.
Lemma jscans_word : forall w, jsteps JNone w = Some (JInWord w) -> jscans w [JWord w].
Proof. intros w H s D. rewrite (jsteps_scan _ _ _ _ H). apply jscan_word_end. exact D. Qed.

(* numbers *)
Lemma digit_plain : forall n, (n < 10)%N -> let c := ascii_of_N (48 + n) in
  digit_char c = true /\ digit_value c = Z.of_N n /\ json_space c = false /\ symbol c = false
  /\ Ascii.eqb c """" = false /\ Ascii.eqb c "-" = false /\ Ascii.eqb c "0" = N.eqb n 0.
Proof.
  intros n H. assert (C : (n = 0 \/ n = 1 \/ n = 2 \/ n = 3 \/ n = 4 \/ n = 5 \/ n = 6 \/ n = 7 \/ n = 8 \/ n = 9)%N) by lia.
  decompose [or] C; subst n; vm_compute; repeat split.
Qed.
Lemma digits_steps : forall f n, (N.to_nat n < 2 ^ f)%nat -> (f <> 0)%nat ->
  (forall neg z, jsteps (JInNum neg z true) (dec_nat f n) = Some (JInNum neg (z * 10 ^ Z.of_nat (width f n) + Z.of_N n) true))
  /\ jsteps JNone (dec_nat f n) = Some (JInNum false (Z.of_N n) (negb (N.eqb n 0)))
  /\ jsteps JMinus (dec_nat f n) = Some (JInNum true (Z.of_N n) (negb (N.eqb n 0))).
Proof.
  assert (One : forall n, (n < 10)%N ->
     (forall neg z, jsteps (JInNum neg z true) (digit_text n) = Some (JInNum neg (z * 10 + Z.of_N n) true))
     /\ jsteps JNone (digit_text n) = Some (JInNum false (Z.of_N n) (negb (N.eqb n 0)))
     /\ jsteps JMinus (digit_text n) = Some (JInNum true (Z.of_N n) (negb (N.eqb n 0)))).
  { intros n Hn. destruct (digit_plain n Hn) as (D1 & D2 & D3 & D4 & D5 & D6 & D7). unfold digit_text, str1.
    cbn [jsteps jstep]. unfold jstep0. rewrite D1, D2, D3, D4, D5, D6, D7. repeat split. }
  induction f as [|f IH]; intros n L F; [congruence|]. cbn [dec_nat width]. destruct (N.ltb n 10) eqn:E.
  - apply N.ltb_lt in E. destruct (One n E) as (A & B & C). split; [|split; assumption]. intros neg z. rewrite A. reflexivity.
  - apply N.ltb_ge in E.
    assert (M : (N.modulo n 10 < 10)%N) by (apply N.mod_lt; lia).
    assert (L' : (N.to_nat (N.div n 10) < 2 ^ f)%nat).
    { cbn [Nat.pow] in L. assert (N.to_nat (N.div n 10) * 2 <= N.to_nat n)%nat by lia. lia. }
    assert (F' : (f <> 0)%nat) by (intros ->; cbn in L; lia).
    destruct (IH (N.div n 10) L' F') as (A & B & C). destruct (One _ M) as (A1 & _ & _).
    assert (Z1 : N.eqb (n / 10) 0 = false) by (apply N.eqb_neq; lia).
    assert (Z2 : N.eqb n 0 = false) by (apply N.eqb_neq; lia).
    rewrite Z1 in B, C. rewrite Z2. cbn [negb] in *.
    split; [intros neg z|split]; rewrite jsteps_app.
    + rewrite A, A1. do 2 f_equal. rewrite Nat2Z.inj_succ, Z.pow_succ_r by lia.
      assert (Z.of_N n = Z.of_N (n / 10) * 10 + Z.of_N (n mod 10))%Z by lia. nia.
    + rewrite B, A1. do 2 f_equal. lia.
    + rewrite C, A1. do 2 f_equal. lia.
Qed.
Lemma jscans_int : forall z, jscans (dec_Z z) [JNum z].
Proof.
  intros z s D. unfold dec_Z, dec_N.
  destruct (digits_steps (S (N.size_nat (Z.abs_N z))) (Z.abs_N z) (size_bound _) (Nat.neq_succ_0 _)) as (_ & B & C).
  destruct (Z.ltb_spec z 0) as [L|L].
  - assert (E : jsteps JNone ("-" +++ dec_nat (S (N.size_nat (Z.abs_N z))) (Z.abs_N z)) = Some (JInNum true (Z.of_N (Z.abs_N z)) (negb (N.eqb (Z.abs_N z) 0)))).
    { rewrite jsteps_app. exact C. }
    rewrite (jsteps_scan _ _ _ _ E), jscan_num_end by exact D. do 3 f_equal. lia.
  - rewrite (jsteps_scan _ _ _ _ B), jscan_num_end by exact D. do 3 f_equal. lia.
Qed.

(* ----- what is read ----- *)

Definition float_of (z : Z) : native := match round_to float64 (mkD z 0) with Some d => NF64 d | None => NNil end.
Definition whole_part (d : dyadic) : Z := (num d / pow2 (den d))%Z.

Fixpoint view (v : native) : native :=
  match v with
  | NNil | NNilMap | NNilList | NInf32 => NNil
  | NStr s => NStr s
  | NBool b => NBool b
  | NInt z | NInt64 z => float_of z
  | NF32 d | NF64 d => float_of (whole_part d)
  | NMap m => NMap (sort_keys (map (fun kv => (fst kv, view (snd kv))) m))
  | NList l => NList (map view l)
  end.

Fixpoint jmember_toks (l : list (string * list jtoken)) : list jtoken :=
  match l with
  | [] => [JSym "}"]
  | [(k, ts)] => JStr k :: JSym ":" :: ts ++ [JSym "}"]
  | (k, ts) :: l' => JStr k :: JSym ":" :: ts ++ JSym "," :: jmember_toks l'
  end.
Fixpoint jelem_toks (l : list (list jtoken)) : list jtoken :=
  match l with
  | [] => [JSym "]"]
  | [ts] => ts ++ [JSym "]"]
  | ts :: l' => ts ++ JSym "," :: jelem_toks l'
  end.
Fixpoint jtoks (v : native) : list jtoken :=
  match v with
  | NNil | NNilMap | NNilList | NInf32 => [JWord "null"]
  | NStr s => [JStr s]
  | NBool b => [JWord (if b then "true" else "false")]
  | NInt z | NInt64 z => [JNum z]
  | NF32 d | NF64 d => [JNum (whole_part d)]
  | NMap m => JSym "{" :: jmember_toks (sort_keys (map (fun kv => (fst kv, jtoks (snd kv))) m))
  | NList l => JSym "[" :: jelem_toks (map jtoks l)
  end.

Definition text_of (v : native) : string := match json_marshal v with Ok t => t | _ => "" end.
Definition writes (v : native) : Prop := exists t, json_marshal v = Ok t /\ jscans t (jtoks v).

Lemma texts_map : forall m, (forall k v, In (k, v) m -> writes v) ->
  (fix go (m : list (string * native)) : result (list (string * string)) :=
      match m with
      | [] => Ok []
      | (k, x) :: m' => do t <- json_marshal x; do r <- go m'; Ok ((k, t) :: r)
      end) m = Ok (on_snd text_of m).
Proof.
  induction m as [|[k v] m IH]; intros H; [reflexivity|].
  destruct (H k v (or_introl eq_refl)) as (t & E & _). rewrite E. cbn [bindr].
  rewrite IH by (intros k' v' I; apply (H k' v'); right; exact I). cbn [bindr]. unfold on_snd, text_of. cbn [map fst snd]. rewrite E. reflexivity.
Qed.
Lemma texts_list : forall l, (forall v, In v l -> writes v) ->
  (fix go (l : list native) : result (list string) :=
      match l with
      | [] => Ok []
      | x :: l' => do t <- json_marshal x; do r <- go l'; Ok (t :: r)
      end) l = Ok (map text_of l).
Proof.
  induction l as [|v l IH]; intros H; [reflexivity|].
  destruct (H v (or_introl eq_refl)) as (t & E & _). rewrite E. cbn [bindr].
  rewrite IH by (intros v' I; apply H; right; exact I). cbn [bindr map]. unfold text_of at 2. rewrite E. reflexivity.
Qed.

Lemma writes_scans : forall v, writes v -> jscans (text_of v) (jtoks v).
Proof. intros v (t & E & S). unfold text_of. rewrite E. exact S. Qed.

Lemma elems_scan : forall l, (forall v, In v l -> writes v) -> jscans0 (join "," (map text_of l) +++ "]") (jelem_toks (map jtoks l)).
Proof.
  induction l as [|v l IH]; intros H; [apply (jscans_sym "]" eq_refl)|].
  assert (W := writes_scans v (H v (or_introl eq_refl))). destruct l as [|w l].
  - cbn [map join jelem_toks]. apply jscans_app0; [exact W|right; left; reflexivity|discriminate|apply (jscans_sym "]" eq_refl)].
  - specialize (IH (fun x I => H x (or_intror I))).
    change (join "," (map text_of (v :: w :: l))) with (text_of v +++ "," +++ join "," (map text_of (w :: l))).
    change (jelem_toks (map jtoks (v :: w :: l))) with (jtoks v ++ ([JSym ","] ++ jelem_toks (map jtoks (w :: l))))%list.
    rewrite !append_assoc. apply jscans_app0; [exact W|left; reflexivity|discriminate|].
    apply jscans0_app; [apply (jscans_sym "," eq_refl)|exact IH].
Qed.

Lemma members_scan : forall m, (forall k v, In (k, v) m -> ascii_string k /\ writes v) ->
  exists ts, member_texts (on_snd text_of m) = Ok ts
    /\ jscans0 (join "," ts +++ "}") (jmember_toks (on_snd jtoks m)) /\ (m = [] <-> ts = []).
Proof.
  induction m as [|[k v] m IH]; intros H.
  - exists []. split; [reflexivity|]. split; [apply (jscans_sym "}" eq_refl)|tauto].
  - destruct (H k v (or_introl eq_refl)) as [A W]. apply writes_scans in W.
    destruct (IH (fun k' v' I => H k' v' (or_intror I))) as (ts & E & S & Ne).
    destruct (jscans_string k A) as (q & Eq & Sq).
    exists ((q +++ ":" +++ text_of v) :: ts). split; [|split; [|split; discriminate]].
    + change (on_snd text_of ((k, v) :: m)) with ((k, text_of v) :: on_snd text_of m). cbn [member_texts]. rewrite Eq. cbn [bindr]. rewrite E. reflexivity.
    + change (on_snd jtoks ((k, v) :: m)) with ((k, jtoks v) :: on_snd jtoks m). destruct ts as [|t2 ts].
      * assert (m = []) by tauto. subst m.
        change (jscans0 ((q +++ ":" +++ text_of v) +++ "}") ([JStr k] ++ [JSym ":"] ++ (jtoks v ++ [JSym "}"]))%list).
        rewrite !append_assoc. apply jscans0_app; [exact Sq|]. apply jscans0_app; [apply (jscans_sym ":" eq_refl)|].
        apply jscans_app0; [exact W|right; right; left; reflexivity|discriminate|apply (jscans_sym "}" eq_refl)].
      * destruct m as [|[k2 v2] m]; [destruct Ne as [Ne _]; discriminate (Ne eq_refl)|].
        change (jscans0 (((q +++ ":" +++ text_of v) +++ "," +++ join "," (t2 :: ts)) +++ "}")
          ([JStr k] ++ [JSym ":"] ++ (jtoks v ++ ([JSym ","] ++ jmember_toks (on_snd jtoks ((k2, v2) :: m)))))%list).
        rewrite !append_assoc. apply jscans0_app; [exact Sq|]. apply jscans0_app; [apply (jscans_sym ":" eq_refl)|].
        apply jscans_app0; [exact W|left; reflexivity|discriminate|]. apply jscans0_app; [apply (jscans_sym "," eq_refl)|exact S].
Qed.

Lemma whole_div : forall d z, is_whole d z -> (num d mod pow2 (den d) = 0 /\ whole_part d = z)%Z.
Proof.
  intros d z H. unfold is_whole in H. unfold whole_part. assert (P := pow2_pos (den d)). fold (pow2 (den d)) in H. rewrite H. split.
  - apply Z.mod_mul. lia.
  - apply Z.div_mul. lia.
Qed.

Theorem marshal_writes : forall v, writable v -> writes v.
Proof.
  induction v as [|s|b|z|z|d| |d| |m IH| |l IH] using native_ind'; intros W; inversion W; subst; unfold writes; cbn [json_marshal].
  - eexists. split; [reflexivity|]. apply jscans_word. reflexivity.
  - destruct (jscans_string s) as (t & E & S); [assumption|]. exists t. split; [exact E|]. apply jscans0_scans. exact S.
  - eexists. split; [reflexivity|]. destruct b; apply jscans_word; reflexivity.
  - eexists. split; [reflexivity|]. apply jscans_int.
  - eexists. split; [reflexivity|]. apply jscans_int.
  - destruct (whole_div d z H0) as [M D]. unfold json_float. rewrite M. fold (whole_part d). rewrite D.
    replace (Z.abs z <=? 2 ^ 24)%Z with true by (symmetry; apply Z.leb_le; assumption). cbn [Z.eqb andb].
    eexists. split; [reflexivity|]. cbn [jtoks]. rewrite D. apply jscans_int.
  - destruct (whole_div d z H0) as [M D]. unfold json_float. rewrite M. fold (whole_part d). rewrite D.
    replace (Z.abs z <=? 2 ^ 53)%Z with true by (symmetry; apply Z.leb_le; assumption). cbn [Z.eqb andb].
    eexists. split; [reflexivity|]. cbn [jtoks]. rewrite D. apply jscans_int.
  - eexists. split; [reflexivity|]. apply jscans_word. reflexivity.
  - assert (Hw : forall k v, In (k, v) m -> ascii_string k /\ writes v) by (intros k v I; split; [|apply (IH k v I)]; apply (H1 k v I)).
    rewrite texts_map by (intros k v I; apply (Hw k v I)). cbn [bindr]. rewrite sort_on.
    destruct (members_scan (sort_keys m)) as (ts & E & S & _); [intros k v I; apply Hw; apply sort_In; exact I|].
    rewrite E. cbn [bindr]. eexists. split; [reflexivity|]. cbn [jtoks]. fold (on_snd jtoks m). rewrite sort_on.
    apply jscans0_scans. apply (jscans0_app "{" _ [JSym "{"%char]); [apply (jscans_sym "{" eq_refl)|exact S].
  - eexists. split; [reflexivity|]. apply jscans_word. reflexivity.
  - rewrite texts_list by (intros v I; apply (IH v I), H0, I). cbn [bindr]. eexists. split; [reflexivity|]. cbn [jtoks].
    apply jscans0_scans. apply (jscans0_app "[" _ [JSym "["%char]); [apply (jscans_sym "[" eq_refl)|].
    apply elems_scan. intros v I. apply (IH v I), H0, I.
Qed.

(* ----- parsing ----- *)

Lemma round_mantissa_le : forall a s, (0 <= a)%Z -> (round_mantissa a s <= a + 2 ^ Z.max 0 s)%Z.
Proof.
  intros a s H. unfold round_mantissa. destruct (Z.leb_spec s 0) as [L|L].
  - assert (0 < 2 ^ Z.max 0 s)%Z by (apply Z.pow_pos_nonneg; lia). lia.
  - replace (Z.max 0 s) with s by lia. assert (P : (0 < 2 ^ s)%Z) by (apply Z.pow_pos_nonneg; lia).
    set (p := (2 ^ s)%Z) in *. cbv zeta. assert (D := Z.div_mod a p). assert (M := Z.mod_pos_bound a p P).
    destruct (_ || _); nia.
Qed.
Lemma round_int64 : forall z, in_int64 z -> exists d, round_to float64 (mkD z 0) = Some d.
Proof.
  intros z H. unfold in_int64 in H. unfold round_to. cbn [num den prec last_place bound float64]. cbv zeta.
  match goal with |- exists d, (if (_ <=? ?r)%Z then _ else _) = _ => set (R := r) end.
  assert (B : (R < 2 ^ (1024 + Z.of_nat 0))%Z); [|replace (2 ^ (1024 + Z.of_nat 0) <=? R)%Z with false by (symmetry; apply Z.leb_gt; exact B); eexists; reflexivity].
  assert (L := round_mantissa_le (Z.abs z) (Z.max (Z.log2 (Z.abs z) + 1 - 53) (-1074 + Z.of_nat 0)) (Z.abs_nonneg z)).
  fold R in L.
  assert (A : (Z.abs z <= 2 ^ 63)%Z) by lia.
  assert (G : (Z.log2 (Z.abs z) <= 63)%Z).
  { apply Z.le_trans with (Z.log2 (2 ^ 63)); [apply Z.log2_le_mono; exact A|rewrite Z.log2_pow2; lia]. }
  assert (E : (2 ^ Z.max 0 (Z.max (Z.log2 (Z.abs z) + 1 - 53) (-1074 + Z.of_nat 0)) <= 2 ^ 63)%Z) by (apply Z.pow_le_mono_r; lia).
  assert (X : (2 ^ 63 + 2 ^ 63 < 2 ^ (1024 + Z.of_nat 0))%Z) by reflexivity. lia.
Qed.

Lemma number_read : forall z, in_int64 z -> json_number z = Ok (float_of z).
Proof. intros z H. unfold json_number, float_of. destruct (round_int64 z H) as (d & E). rewrite E. reflexivity. Qed.
Lemma up24 : forall z, (Z.abs z <= 2 ^ 24)%Z -> (Z.abs z <= 2 ^ 53)%Z.
Proof. intros z H. assert (2 ^ 24 <= 2 ^ 53)%Z by (apply Z.leb_le; reflexivity). lia. Qed.
Lemma small_int64 : forall z, (Z.abs z <= 2 ^ 53)%Z -> in_int64 z.
Proof. intros z H. unfold in_int64. assert (2 ^ 53 < 2 ^ 63)%Z by reflexivity. lia. Qed.

Lemma insert_fresh : forall (k : string) (v : native) m, ~ In k (keys m) -> insert k v m = (m ++ [(k, v)])%list.
Proof.
  intros k v m. induction m as [|[k' v'] m IH]; intros N; [reflexivity|]. cbn [insert].
  destruct (eq_dec k k') as [->|]; [exfalso; apply N; left; reflexivity|].
  rewrite IH by (intros I; apply N; right; exact I). reflexivity.
Qed.

Local Open Scope nat_scope.
Definition reads_back (v : native) : Prop :=
  forall n r, List.length (jtoks v) <= n -> jvalue n (jtoks v ++ r) = Ok (view v, r).

Lemma jtoks_head : forall v, exists t ts, jtoks v = t :: ts /\ t <> JSym "]" /\ t <> JSym "}".
Proof.
  intros v. destruct v as [|s|[]|z|z|d| |d| |m| |l]; cbn [jtoks]; do 2 eexists; (split; [reflexivity|]); split; discriminate.
Qed.

Lemma elems_read : forall l r n, l <> [] -> (forall v, In v l -> reads_back v) ->
  List.length (jelem_toks (map jtoks l)) <= n -> jelems n (jelem_toks (map jtoks l) ++ r) = Ok (map view l, r).
Proof.
  induction l as [|v l IH]; intros r n Ne H L; [congruence|]. destruct l as [|w l].
  - cbn [map jelem_toks] in *. rewrite app_length in L. cbn in L. destruct n as [|n]; [lia|]. cbn [jelems].
    rewrite <- app_assoc. rewrite (H v (or_introl eq_refl)) by lia. reflexivity.
  - change (jelem_toks (map jtoks (v :: w :: l))) with (jtoks v ++ JSym "," :: jelem_toks (map jtoks (w :: l)))%list in *.
    rewrite app_length in L. cbn [List.length] in L. destruct n as [|n]; [lia|]. cbn [jelems].
    rewrite <- app_assoc. rewrite (H v (or_introl eq_refl)) by lia. cbn [bindr fst snd]. rewrite <- app_comm_cons.
    rewrite IH; [reflexivity|discriminate|intros x I; apply H; right; exact I|lia].
Qed.

Lemma members_read : forall m acc r n, m <> [] -> NoDup (keys acc ++ keys m) -> (forall k v, In (k, v) m -> reads_back v) ->
  List.length (jmember_toks (on_snd jtoks m)) <= n ->
  jmembers n acc (jmember_toks (on_snd jtoks m) ++ r) = Ok ((acc ++ on_snd view m)%list, r).
Proof.
  induction m as [|[k v] m IH]; intros acc r n Ne N H L; [congruence|].
  assert (F : ~ In k (keys acc)).
  { intros I. cbn in N. apply NoDup_remove_2 in N. apply N. apply in_or_app. left. exact I. }
  assert (Hv := H k v (or_introl eq_refl)). destruct m as [|[k2 v2] m].
  - unfold on_snd in L |- *. cbn [map jmember_toks fst snd] in L |- *. cbn [List.length] in L. rewrite app_length in L. cbn in L. destruct n as [|n]; [lia|].
    rewrite <- !app_comm_cons, <- app_assoc. cbn [jmembers]. rewrite Hv by lia. cbn [bindr fst snd app].
    rewrite insert_fresh by exact F. reflexivity.
  - change (jmember_toks (on_snd jtoks ((k, v) :: (k2, v2) :: m)))
      with (JStr k :: JSym ":" :: jtoks v ++ JSym "," :: jmember_toks (on_snd jtoks ((k2, v2) :: m)))%list in *.
    cbn [List.length] in L. rewrite app_length in L. cbn [List.length] in L. destruct n as [|n]; [lia|].
    rewrite <- !app_comm_cons, <- app_assoc. cbn [jmembers]. rewrite Hv by lia. cbn [bindr fst snd]. rewrite <- app_comm_cons.
    rewrite IH.
    + rewrite insert_fresh by exact F. rewrite <- app_assoc. reflexivity.
    + discriminate.
    + rewrite insert_fresh by exact F. unfold keys in *. rewrite map_app. cbn [map fst]. rewrite <- app_assoc. exact N.
    + intros k' v' I. apply (H k' v'). right. exact I.
    + lia.
Qed.

Theorem value_reads : forall v, writable v -> reads_back v.
Proof.
  induction v as [|s|b|z|z|d| |d| |m IH| |l IH] using native_ind'; intros W; inversion W; subst; intros n r L; cbn [jtoks] in *;
    (destruct n as [|n]; [cbn in L; lia|]).
  - reflexivity.
  - reflexivity.
  - destruct b; reflexivity.
  - cbn [app jvalue]. rewrite number_read by assumption. reflexivity.
  - cbn [app jvalue]. rewrite number_read by assumption. reflexivity.
  - destruct (whole_div d z H0) as [_ D]. cbn [app jvalue view]. rewrite D, number_read by (apply small_int64, up24; assumption). reflexivity.
  - destruct (whole_div d z H0) as [_ D]. cbn [app jvalue view]. rewrite D, number_read by (apply small_int64; assumption). reflexivity.
  - reflexivity.
  - fold (on_snd jtoks m) in *. cbn [view]. fold (on_snd view m). rewrite !sort_on in *.
    assert (Hr : forall k v, In (k, v) (sort_keys m) -> reads_back v).
    { intros k v I. apply (proj1 (sort_In _ _ _)) in I. apply (IH k v I). apply (H1 k v I). }
    assert (N := sort_nodup _ _ H0). destruct (sort_keys m) as [|[k v] m'] eqn:E.
    + reflexivity.
    + cbn [List.length] in L.
      assert (Q := members_read ((k, v) :: m') [] r n). cbn [app] in Q.
      rewrite <- app_comm_cons. cbn [jvalue].
      rewrite Q; [|discriminate|exact N|exact Hr|lia]. 
      destruct m' as [|[k2 v2] m']; reflexivity.
  - reflexivity.
  - cbn [view]. destruct l as [|v l]; [reflexivity|].
    assert (Q := elems_read (v :: l) r n ltac:(discriminate) (fun x I => IH x I (H0 x I))). cbn [List.length] in L.
    rewrite <- app_comm_cons. cbn [jvalue]. rewrite Q by lia.
    destruct (jtoks_head v) as (t & ts & E & N1 & N2).
    assert (X : exists q, (jelem_toks (map jtoks (v :: l)) ++ r)%list = t :: q).
    { cbn [map]. destruct l as [|w l]; cbn [map jelem_toks]; rewrite E; eexists; reflexivity. }
    destruct X as (q & X). rewrite X. destruct t as [s|z|w|c]; try reflexivity.
    destruct c as [[] [] [] [] [] [] [] []]; try reflexivity. congruence.
Qed.

(* ----- the two together ----- *)

Theorem json_round_trip : forall m, writable (NMap m) ->
  exists t, json_marshal (NMap m) = Ok t /\ json_unmarshal t = Ok (view (NMap m)).
Proof.
  intros m W. destruct (marshal_writes _ W) as (t & E & Sc). exists t. split; [exact E|]. unfold json_unmarshal.
  specialize (Sc "" I). rewrite append_nil_r in Sc. rewrite Sc. cbn [jscan jpush bindr]. rewrite app_nil_r.
  assert (R := value_reads _ W (S (List.length (jtoks (NMap m)))) []). rewrite app_nil_r in R. rewrite R by lia. reflexivity.
Qed.

Lemma small_representable : forall z, (Z.abs z <= 2 ^ 53)%Z -> representable float64 (mkD z 0).
Proof.
  intros z H. destruct (Z.eq_dec (Z.abs z) (2 ^ 53)) as [E|N].
  - exists (Z.sgn z * 2 ^ 52)%Z, 1%Z. cbn [num den prec last_place bound float64]. split; [|split; [lia|split]].
    + assert (2 ^ 52 < 2 ^ 53)%Z by reflexivity. assert (0 < 2 ^ 52)%Z by reflexivity. destruct z; cbn [Z.sgn]; lia.
    + assert (X : (2 ^ 53 = 2 ^ 52 * 2)%Z) by reflexivity. rewrite X in E. change (Z.max 0 (- (1))) with 0%Z. change (Z.max 0 1) with 1%Z.
      change (Z.of_nat 0) with 0%Z. change (2 ^ 0)%Z with 1%Z. change (2 ^ 1)%Z with 2%Z. destruct z; cbn [Z.sgn]; lia.
    + rewrite E. reflexivity.
  - exists z, 0%Z. cbn [num den prec last_place bound float64]. split; [lia|]. split; [lia|]. split; [change (Z.of_nat 0) with 0%Z; cbn; lia|].
    assert (2 ^ 53 < 2 ^ 1024 * 2 ^ Z.of_nat 0)%Z by reflexivity. lia.
Qed.
Lemma float_small : forall z, (Z.abs z <= 2 ^ 53)%Z -> float_of z = NF64 (mkD z 0).
Proof.
  intros z H. unfold float_of. rewrite (round_to_exact float64 (mkD z 0) good64 (small_representable z H)). reflexivity.
Qed.

Theorem view_correct : forall v, writable v -> json_view v (view v).
Proof.
  assert (I : forall z, in_int64 z -> exists d, float_of z = NF64 d /\ representable float64 d /\ nearest float64 d (mkD z 0)).
  { intros z H. destruct (round_int64 z H) as (d & E). exists d. unfold float_of. rewrite E. split; [reflexivity|].
    split; [apply (round_to_representable float64 (mkD z 0) d good64 E)|exact (round_to_nearest float64 (mkD z 0) d good64 E)]. }
  assert (F : forall d z, is_whole d z -> (Z.abs z <= 2 ^ 53)%Z -> float_of (whole_part d) = NF64 (mkD z 0) /\ same_num d (mkD z 0)).
  { intros d z H L. destruct (whole_div d z H) as [_ D]. rewrite D, float_small by exact L. split; [reflexivity|].
    unfold same_num. cbn [num den]. unfold is_whole in H. unfold pow2. cbn. lia. }
  induction v as [|s|b|z|z|d| |d| |m IH| |l IH] using native_ind'; intros W; inversion W; subst; cbn [view]; try constructor.
  - destruct (I z) as (d & E & A & B); [assumption|]. rewrite E. constructor; assumption.
  - destruct (I z) as (d & E & A & B); [assumption|]. rewrite E. constructor; assumption.
  - destruct (F d z) as [E S]; try assumption; [apply up24; assumption|]. rewrite E. constructor. exact S.
  - destruct (F d z) as [E S]; try assumption. rewrite E. constructor. exact S.
  - assumption.
  - fold (on_snd view m). apply sort_nodup. rewrite keys_on. assumption.
  - fold (on_snd view m). intros k. rewrite lookup_sort by (rewrite keys_on; assumption). rewrite lookup_on. destruct (lookup k m); cbn [option_map]; split; intros X; try discriminate X; reflexivity.
  - fold (on_snd view m). intros k v v' E E'. rewrite lookup_sort in E' by (rewrite keys_on; assumption). rewrite lookup_on, E in E'.
    injection E' as <-. apply lookup_In in E. apply (IH k v E). apply (H1 k v E).
  - clear W. induction l as [|v l IHl]; [constructor|]. cbn [map]. constructor; [apply IH; [left; reflexivity|apply H0; left; reflexivity]|].
    apply IHl; [intros x X; apply IH; right; exact X|intros x X; apply H0; right; exact X].
Qed.
