(* The properties of uuidv5, bcrypt, rsadecrypt and uuid. *)

From Verif Require Import Base CtyModel FuncModel FuncSpec FuncProofs FuncText EncModel EncSpec EncProofs CryptoModel CryptoSpec CryptoProofs.
From Coq Require Import NArith ZArith Lia.

(* ----- C82: uuidv5 ----- *)

Definition twenty (sha1 : string -> string) : Prop := forall s, String.length (sha1 s) = 20.
Lemma uuidv5_call : forall nfc quoted itoa sha1 early ms ms' s n ns, namespace_of quoted itoa s = Ok ns -> exists r,
  call early (uuidv5_func nfc quoted itoa sha1) [Val ms (SStr s) []; Val ms' (SStr n) []] = Ok r /\
  shape_of r = SStr (nfc (uuid_string (new_sha1 sha1 ns n))) /\ forall m, In m (marks_of r) <-> In m ms \/ In m ms'.
Proof.
  intros nfc quoted itoa sha1 early ms ms' s n ns N. eexists. split; [|split].
  - unfold call, uuidv5_func. cbn -[namespace_of new_sha1 uuid_string with_marks flat_map string_val]. rewrite N. cbn [bindr]. reflexivity.
  - reflexivity.
  - intro m. rewrite marks_with. cbn. rewrite !app_nil_r, in_app_iff. tauto.
Qed.
(* The result is the UUID of version 5 made from the hash of the bytes of the namespace followed by
   the name, written in small letters. *)
Theorem C82_uuidv5 : forall nfc quoted itoa sha1 early ms ms' s n ns, ascii_stays nfc -> twenty sha1 -> namespace s ns -> exists r t u,
  call early (uuidv5_func nfc quoted itoa sha1) [Val ms (SStr s) []; Val ms' (SStr n) []] = Ok r /\ shape_of r = SStr t /\
  dashed hex_text t u /\ version5 (sha1 (ns +++ n)) u /\ forall m, In m (marks_of r) <-> In m ms \/ In m ms'.
Proof.
  intros nfc quoted itoa sha1 early ms ms' s n ns A T N. destruct (namespace_parse quoted itoa s ns N) as [P L].
  destruct (uuidv5_call nfc quoted itoa sha1 early ms ms' s n ns P) as (r & E & S & M). destruct (new_sha1_spec sha1 ns n (T _)) as [L' V].
  assert (D := uuid_string_spec _ L'). exists r, (uuid_string (new_sha1 sha1 ns n)), (new_sha1 sha1 ns n). rewrite (A _ (dashed_ascii _ _ D)) in S. auto.
Qed.
Print Assumptions C82_uuidv5.
(* The writing of the namespace does not matter. *)
Theorem C82_writing : forall nfc quoted itoa sha1 early ms ms' s s' n ns, namespace s ns -> namespace s' ns ->
  call early (uuidv5_func nfc quoted itoa sha1) [Val ms (SStr s) []; Val ms' (SStr n) []] =
  call early (uuidv5_func nfc quoted itoa sha1) [Val ms (SStr s') []; Val ms' (SStr n) []].
Proof.
  intros nfc quoted itoa sha1 early ms ms' s s' n ns N N'. destruct (namespace_parse quoted itoa s ns N) as [P _], (namespace_parse quoted itoa s' ns N') as [P' _].
  unfold call, uuidv5_func. cbn -[namespace_of new_sha1 uuid_string with_marks flat_map string_val]. rewrite P, P'. reflexivity.
Qed.
Print Assumptions C82_writing.
(* Different names or namespaces give different results, unless the hashes of two different texts
   agree in 122 of their bits. *)
Theorem C82_different : forall nfc quoted itoa sha1 early ms ms' s s' n n' ns ns' r r', ascii_stays nfc -> twenty sha1 -> namespace s ns -> namespace s' ns' ->
  call early (uuidv5_func nfc quoted itoa sha1) [Val ms (SStr s) []; Val ms' (SStr n) []] = Ok r ->
  call early (uuidv5_func nfc quoted itoa sha1) [Val ms (SStr s') []; Val ms' (SStr n') []] = Ok r' -> shape_of r = shape_of r' ->
  (ns = ns' /\ n = n') \/ exists x x', x <> x' /\ agree (sha1 x) (sha1 x').
Proof.
  intros nfc quoted itoa sha1 early ms ms' s s' n n' ns ns' r r' A T N N' C C' E.
  destruct (namespace_parse quoted itoa s ns N) as [_ L], (namespace_parse quoted itoa s' ns' N') as [_ L'].
  destruct (C82_uuidv5 nfc quoted itoa sha1 early ms ms' s n ns A T N) as (r0 & t & u & C0 & S & D & V & _). rewrite C in C0. injection C0 as <-.
  destruct (C82_uuidv5 nfc quoted itoa sha1 early ms ms' s' n' ns' A T N') as (r0 & t' & u' & C0 & S' & D' & V' & _). rewrite C' in C0. injection C0 as <-.
  assert (t = t') by congruence. subst t'. assert (u' = u) by (eapply dashed_value; eauto). subst u'.
  destruct (String.string_dec (ns +++ n) (ns' +++ n')) as [X|X].
  - left. apply app_split in X; [exact X|congruence].
  - right. exists (ns +++ n), (ns' +++ n'). split; [exact X|]. exact (version5_agree _ _ u (T _) (T _) V V').
Qed.
Print Assumptions C82_different.
(* Nothing else is taken, except for what is in the place of the braces. *)
Theorem C82_only : forall nfc quoted itoa sha1 early ms ms' s n r,
  call early (uuidv5_func nfc quoted itoa sha1) [Val ms (SStr s) []; Val ms' (SStr n) []] = Ok r ->
  exists ns, namespace s ns \/ exists x y t, s = String x (t +++ String y "") /\ dashed hex_any t ns.
Proof.
  intros nfc quoted itoa sha1 early ms ms' s n r H. unfold call, uuidv5_func in H. cbn -[namespace_of new_sha1 uuid_string with_marks flat_map string_val] in H.
  destruct (namespace_of quoted itoa s) as [ns|e|e] eqn:N; [|discriminate H|discriminate H]. exists ns. exact (namespace_inv quoted itoa s ns N).
Qed.
Print Assumptions C82_only.

Definition some_hash (s : string) : string := substring 0 20 (s +++ "....................").
Example C82_hash : twenty some_hash.
Proof. intro s. apply substring_len. rewrite app_len. cbn. lia. Qed.
Example C82_sample : map (fun s => call (fun _ => []) (uuidv5_func id id (fun _ => "") some_hash) [str_val s; Val ["m"] (SStr "tada") []])
   ["dns"; "6BA7B810-9dad-11d1-80b4-00c04fd430c8"; "URN:uuid:6ba7b810-9dad-11d1-80b4-00c04fd430c8"; "{6ba7b810-9dad-11d1-80b4-00c04fd430c8}"; "6ba7b8109dad11d180b400c04fd430c8"]
  = repeat (Ok (Val ["m"] (SStr "6ba7b810-9dad-51d1-80b4-00c04fd430c8") [])) 5.
Proof. vm_compute. reflexivity. Qed.
Example C82_bad : map (fun s => call (fun _ => []) (uuidv5_func id id (fun _ => "4") some_hash) [str_val s; str_val "tada"]) ["DNS"; "6ba7b810-9dad-11d1-80b4-00c04fd430cg"]
  = [Err "uuidv5() doesn't support namespace DNS (invalid UUID length: 4)"; Err "uuidv5() doesn't support namespace 6ba7b810-9dad-11d1-80b4-00c04fd430cg (invalid UUID format)"].
Proof. vm_compute. reflexivity. Qed.

(* What stands in the place of the braces is not looked at. *)
Theorem C82_braces_refuted : exists s, (forall ns, ~ namespace s ns) /\ forall nfc quoted itoa sha1 n, exists r,
  call (fun _ => []) (uuidv5_func nfc quoted itoa sha1) [str_val s; str_val n] = Ok r.
Proof.
  exists "x6ba7b810-9dad-11d1-80b4-00c04fd430c8y". split.
  - intros ns H. destruct (namespace_parse id (fun _ => "") _ _ H) as [P _].
    remember "x6ba7b810-9dad-11d1-80b4-00c04fd430c8y" as s eqn:E. destruct H as [s n N|t u D|p t u S D|t u D|t u H L].
    + destruct N; discriminate.
    + destruct (dashed_len _ _ D) as [L _]. rewrite E in L. discriminate.
    + destruct (dashed_len _ _ D) as [L _]. assert (Lp := same_len _ _ S). apply (f_equal String.length) in E. rewrite app_len, L, Lp in E. discriminate.
    + discriminate.
    + apply hex_any_len in H. rewrite L, E in H. discriminate.
  - intros nfc quoted itoa sha1 n. eexists. cbn -[new_sha1 uuid_string with_marks string_val]. reflexivity.
Qed.
Print Assumptions C82_braces_refuted.
(* The message of a refusal shows the namespace, sensitive or not. *)
Theorem C82_secret_refuted : exists s e, forall nfc quoted sha1 n,
  call (fun _ => []) (uuidv5_func nfc quoted (fun _ => "6") sha1) [Val [sensitive_mark] (SStr s) []; str_val n] = Err e /\ contains e s = true.
Proof. exists "secret". eexists. split; reflexivity. Qed.
Print Assumptions C82_secret_refuted.

(* ----- C83: bcrypt and rsadecrypt ----- *)

Lemma short : forall p, String.length p <= 72 -> (72 <? String.length p) = false.
Proof. intros p L. apply Nat.ltb_ge. exact L. Qed.
(* Without a cost it is 10. *)
Theorem C83_default : forall nfc itoa blowfish early ms p, String.length p <= 72 -> exists r,
  call early (bcrypt_func nfc itoa blowfish) [Val ms (SStr p) []] = Ok r /\ shape_of r = SStr (nfc (blowfish p 10%Z)) /\ forall m, In m (marks_of r) <-> In m ms.
Proof.
  intros nfc itoa blowfish early ms p L. eexists. split; [|split].
  - unfold call, bcrypt_func. cbn -[generate_from_password with_marks flat_map string_val]. unfold generate_from_password. rewrite short by exact L. reflexivity.
  - reflexivity.
  - intro m. rewrite marks_with. cbn. rewrite !app_nil_r. tauto.
Qed.
Print Assumptions C83_default.
(* A cost from 4 to 31 is used. *)
Theorem C83_cost : forall nfc itoa blowfish early ms ms' p n z, String.length p <= 72 -> number_is n z -> (4 <= z <= 31)%Z -> exists r,
  call early (bcrypt_func nfc itoa blowfish) [Val ms (SStr p) []; Val ms' (SNum n) []] = Ok r /\ shape_of r = SStr (nfc (blowfish p z)) /\
  forall m, In m (marks_of r) <-> In m ms \/ In m ms'.
Proof.
  intros nfc itoa blowfish early ms ms' p n z L N B. assert (T : to_int (Val [] (SNum n) []) = Ok z) by (apply to_int_spec; exact N).
  exists (with_marks (flat_map taken_marks [(plain_param str, Val ms (SStr p) []); (plain_param numt, Val ms' (SNum n) [])]) (string_val nfc (blowfish p z))). split; [|split].
  - unfold call, bcrypt_func. cbn -[generate_from_password with_marks flat_map string_val to_int]. rewrite T. cbn [bindr]. unfold generate_from_password.
    rewrite short by exact L. destruct (Z.ltb_spec z 4); [lia|]. destruct (Z.ltb_spec 31 z); [lia|]. reflexivity.
  - reflexivity.
  - intro m. rewrite marks_with. cbn. rewrite !app_nil_r, in_app_iff. tauto.
Qed.
Print Assumptions C83_cost.
Definition number_arg (c : list mark * number) : value := Val (fst c) (SNum (snd c)) [].
Lemma numbers_pass : forall costs, check_args (map (fun a => (plain_param numt, a)) (map number_arg costs)) = Ok false /\
  existsb unknown_arg (map (fun a => (plain_param numt, a)) (map number_arg costs)) = false /\
  map seen (map (fun a => (plain_param numt, a)) (map number_arg costs)) = map (fun c => Val [] (SNum (snd c)) []) costs.
Proof.
  induction costs as [|[ms n] costs (A & B & C)]; [repeat split; reflexivity|]. cbn [map]. split; [exact A|]. split; [exact B|]. cbn [map]. rewrite C. reflexivity.
Qed.
Lemma bcrypt_run : forall nfc itoa blowfish early ms p costs,
  call early (bcrypt_func nfc itoa blowfish) (Val ms (SStr p) [] :: map number_arg costs) =
  (do r <- no_panic (f_impl (bcrypt_func nfc itoa blowfish) (Val [] (SStr p) [] :: map (fun c => Val [] (SNum (snd c)) []) costs) str);
   Ok (with_marks (flat_map taken_marks ((plain_param str, Val ms (SStr p) []) :: map (fun a => (plain_param numt, a)) (map number_arg costs))) r)).
Proof.
  intros. destruct (numbers_pass costs) as (A & B & C). unfold call. cbn [f_params f_var bcrypt_func pair_args]. rewrite pair_var.
  cbn [check_args is_null]. change (check_args ((plain_param str, Val ms (SStr p) []) :: map (fun a => (plain_param numt, a)) (map number_arg costs)))
    with (check_args (map (fun a => (plain_param numt, a)) (map number_arg costs))).
  replace (kind_eqb (kind_of (type_of (Val ms (SStr p) []))) KDyn) with false by reflexivity. cbn [andb].
  replace (negb (conforms (type_of (Val ms (SStr p) [])) (p_type (plain_param str)))) with false by reflexivity.
  rewrite A. cbn [bindr]. cbn [map]. rewrite C. cbn [existsb]. rewrite B. reflexivity.
Qed.
(* Refused are passwords of more than 72 bytes, costs above 31, costs that are no whole numbers,
   and more than one cost. *)
Theorem C83_refused : forall nfc itoa blowfish early ms p costs r,
  call early (bcrypt_func nfc itoa blowfish) (Val ms (SStr p) [] :: map number_arg costs) = Ok r ->
  String.length p <= 72 /\ (costs = [] \/ exists ms' n z, costs = [(ms', n)] /\ number_is n z /\ (z <= 31)%Z).
Proof.
  intros nfc itoa blowfish early ms p costs r H. rewrite bcrypt_run in H. cbn [f_impl bcrypt_func map] in H. destruct costs as [|[ms' n] [|c costs]]; cbn [map snd] in H.
  - cbn [bindr as_string] in H. unfold generate_from_password in H. destruct (Nat.ltb_spec 72 (String.length p)) as [L|L]; [discriminate H|]. auto.
  - destruct (to_int_cases n) as [[z T]|[e T]]; rewrite T in H; cbn [bindr as_string] in H; [|discriminate H]. unfold generate_from_password in H.
    destruct (Nat.ltb_spec 72 (String.length p)) as [L|L]; [discriminate H|]. split; [exact L|]. right. exists ms', n, z. split; [reflexivity|].
    split; [apply to_int_spec; exact T|]. destruct (Z.ltb_spec z 4); [lia|]. destruct (Z.ltb_spec 31 z); [discriminate H|]. lia.
  - destruct (to_int_cases n) as [[z T]|[e T]]; rewrite T in H; discriminate H.
Qed.
Print Assumptions C83_refused.
(* rsadecrypt decodes the text, reads the key and decrypts. *)
Theorem C83_rsadecrypt : forall nfc quoted key parse_key decrypt early ms ms' t k c rest (p : key) out, base64 (one_line t) c rest ->
  parse_key k = Ok (Some p) -> decrypt p c = Ok out -> exists r,
  call early (rsadecrypt_func nfc quoted key parse_key decrypt) [Val ms (SStr t) []; Val ms' (SStr k) []] = Ok r /\ shape_of r = SStr (nfc out) /\
  forall m, In m (marks_of r) <-> In m ms \/ In m ms'.
Proof.
  intros nfc quoted key parse_key decrypt early ms ms' t k c rest p out B K D. assert (E : decode64 [] t = Some c) by (apply decode_iff; eauto). eexists. split; [|split].
  - unfold call, rsadecrypt_func. cbn -[decode64 with_marks flat_map string_val]. rewrite E, K. cbn [bindr]. rewrite D. reflexivity.
  - reflexivity.
  - intro m. rewrite marks_with. cbn. rewrite !app_nil_r, in_app_iff. tauto.
Qed.
Print Assumptions C83_rsadecrypt.
Theorem C83_rsa_only : forall nfc quoted key parse_key decrypt early ms ms' t k r,
  call early (rsadecrypt_func nfc quoted key parse_key decrypt) [Val ms (SStr t) []; Val ms' (SStr k) []] = Ok r ->
  exists c rest (p : key) out, base64 (one_line t) c rest /\ parse_key k = Ok (Some p) /\ decrypt p c = Ok out /\ shape_of r = SStr (nfc out).
Proof.
  intros nfc quoted key parse_key decrypt early ms ms' t k r H. unfold call, rsadecrypt_func in H. cbn -[decode64 with_marks flat_map string_val] in H.
  destruct (decode64 [] t) as [c|] eqn:E; [|discriminate H]. apply decode_iff in E. destruct E as [rest B].
  destruct (parse_key k) as [[p|]|e|e] eqn:K; cbn [bindr] in H; try discriminate H. destruct (decrypt p c) as [out|e|e] eqn:D; cbn [bindr no_panic] in H; try discriminate H.
  exists c, rest, p, out. injection H as <-. auto.
Qed.
Print Assumptions C83_rsa_only.

Definition some_blowfish (p : string) (z : Z) : string := p +++ (if (z =? 10)%Z then "10" else if (z =? 5)%Z then "5" else "").
Example C83_sample : map (call (fun _ => []) (bcrypt_func id (fun _ => "") some_blowfish))
   [[Val ["m"] (SStr "test") []]; [str_val "test"; Val ["n"] (SNum (Fin 64 (mkD 10 1))) []]; [str_val "test"; num_val (Fin 64 (mkD 11 1))];
    [str_val "test"; num_val (int_val 10); num_val (int_val 11)]]
  = [Ok (Val ["m"] (SStr "test10") []); Ok (Val ["n"] (SStr "test5") []); Err "value must be a whole number"; Err "bcrypt() takes no more than two arguments"].
Proof. vm_compute. reflexivity. Qed.
Example C83_rsa_sample : call (fun _ => []) (rsadecrypt_func id id bool (fun s => Ok (Some (String.eqb s "key"))) (fun b s => if b then Ok (s +++ s) else Err "wrong"))
   [Val ["m"] (SStr "YWI=") []; str_val "key"] = Ok (Val ["m"] (SStr "abab") []).
Proof. vm_compute. reflexivity. Qed.

(* Costs below 4 are not refused and not used either: the cost is then 10, more than for 4. *)
Theorem C83_cost_refuted : forall z, (- 2 ^ 63 <= z < 4)%Z -> forall nfc itoa blowfish p, String.length p <= 72 ->
  call (fun _ => []) (bcrypt_func nfc itoa blowfish) [str_val p; num_val (int_val z)] = Ok (str_val (nfc (blowfish p 10%Z))).
Proof.
  intros z B nfc itoa blowfish p L. assert (T : to_int (Val [] (SNum (int_val z)) []) = Ok z).
  { apply to_int_spec. split; [exists 64%N, (mkD z 0); split; [reflexivity|cbn; lia] || (do 2 eexists; split; [reflexivity|cbn [num den]; change (2 ^ Z.of_nat 0)%Z with 1%Z; lia])|lia]. }
  unfold call, bcrypt_func. cbn -[generate_from_password with_marks flat_map string_val to_int int_val]. rewrite T. cbn [bindr]. unfold generate_from_password.
  rewrite short by exact L. destruct (Z.ltb_spec z 4); [|lia]. reflexivity.
Qed.
Print Assumptions C83_cost_refuted.
(* The message of a refusal shows the text to decrypt, sensitive or not. *)
Theorem C83_secret_refuted : exists t e, forall nfc key parse_key decrypt k,
  call (fun _ => []) (rsadecrypt_func nfc (fun s => s) key parse_key decrypt) [Val [sensitive_mark] (SStr t) []; str_val k] = Err e /\ contains e t = true.
Proof. exists "secret". eexists. split; reflexivity. Qed.
Print Assumptions C83_secret_refuted.

(* ----- C92: uuid ----- *)

Lemma hex_text_any : forall t s, hex_text t s -> hex_any t s.
Proof. induction 1 as [|h l x y t s [H _] [L _] _ IH]; constructor; assumption. Qed.
Lemma dashed_any : forall t u, dashed hex_text t u -> dashed hex_any t u.
Proof.
  intros t u (a & b & c & d & e & ta & tb & tc & td & te & A & B & C & D & E & H). exists a, b, c, d, e, ta, tb, tc, td, te.
  repeat (split; [apply hex_text_any; assumption|]). exact H.
Qed.
(* The result says the 16 random bytes in five groups of hexadecimal digits, in small letters; if
   there are no random bytes there is an error. *)
Theorem C92_uuid : forall nfc early, ascii_stays nfc ->
  (forall b, String.length b = 16 -> exists t, call early (uuid_func nfc (Ok b)) [] = Ok (str_val t) /\ dashed hex_text t b) /\
  (forall e, call early (uuid_func nfc (Err e)) [] = Err e) /\
  (forall random v args, call early (uuid_func nfc random) (v :: args) = Err "wrong number of arguments").
Proof.
  intros nfc early A. split; [|split].
  - intros b L. assert (D := uuid_string_spec b L). exists (uuid_string b). split; [|exact D].
    unfold call, uuid_func. cbn -[uuid_string]. rewrite (A _ (dashed_ascii _ _ D)). reflexivity.
  - reflexivity.
  - reflexivity.
Qed.
Print Assumptions C92_uuid.
(* Different bytes give different results. *)
Theorem C92_different : forall nfc early b b', ascii_stays nfc -> String.length b = 16 -> String.length b' = 16 ->
  call early (uuid_func nfc (Ok b)) [] = call early (uuid_func nfc (Ok b')) [] -> b = b'.
Proof.
  intros nfc early b b' A L L' E. destruct (C92_uuid nfc early A) as (U & _).
  destruct (U b L) as (t & C & D). destruct (U b' L') as (t' & C' & D'). rewrite C, C' in E.
  injection E as <-. exact (dashed_value _ _ _ D D').
Qed.
Print Assumptions C92_different.
(* A result can be the namespace of uuidv5. *)
Theorem C92_namespace : forall nfc quoted itoa sha1 early b n, ascii_stays nfc -> twenty sha1 -> String.length b = 16 -> exists r v t u,
  call early (uuid_func nfc (Ok b)) [] = Ok r /\
  call early (uuidv5_func nfc quoted itoa sha1) [r; str_val n] = Ok v /\ shape_of v = SStr t /\ dashed hex_text t u /\ version5 (sha1 (b +++ n)) u.
Proof.
  intros nfc quoted itoa sha1 early b n A T L. destruct (C92_uuid nfc early A) as (U & _). destruct (U b L) as (t & C & D).
  destruct (C82_uuidv5 nfc quoted itoa sha1 early [] [] t n b A T (ns_plain _ _ (dashed_any _ _ D))) as (r & t' & u & C' & S & D' & V & _).
  exists (str_val t), r, t', u. repeat (split; [assumption|]). exact V.
Qed.
Print Assumptions C92_namespace.
(* It is a UUID of version 4 only if the bytes happen to say so. *)
Theorem C92_version_refuted : exists b, String.length b = 16 /\ ~ version4 b /\
  call (fun _ => []) (uuid_func id (Ok b)) [] = Ok (str_val "30313233-3435-3637-3839-616263646566").
Proof. exists "0123456789abcdef". split; [reflexivity|]. split; [|vm_compute; reflexivity]. vm_compute. intros [H _]. discriminate. Qed.
Print Assumptions C92_version_refuted.
Example C92_sample : let b := "012345G7" +++ String "184" "9abcdef" in version4 b /\
  call (fun _ => []) (uuid_func id (Ok b)) [] = Ok (str_val "30313233-3435-4737-b839-616263646566").
Proof. split; vm_compute; [split|]; reflexivity. Qed.
