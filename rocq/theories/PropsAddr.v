(* Property theorems for the texts that the functions of cidr.go give: C95. *)
From Coq Require Import List String Bool Arith ZArith Lia.
From Verif Require Import Base CtyModel FuncModel FuncSpec FuncProofs CidrFuncModel.
From Verif Require Import IpModel IpSpec IpProofs IpProofs6 IpProofs7 IpProofs8 CidrModel CidrSpec CidrProofs CidrProofs2 CidrProofs3 CidrProofs4 PropsIp PropsCidr AddrModel AddrSpec AddrProofs.
From Coq Require Import ZifyBool ZifyNat ZifyN.
Ltac Zify.zify_post_hook ::= Z.div_mod_to_equations.
Import ListNotations.
Local Open Scope string_scope.
Local Open Scope Z_scope.

(* ----- addresses ----- *)

Theorem C95_ipv4 : forall ip, bytes ip -> length ip = 4%nat -> quad (ip_string ip) ip.
Proof. intros ip B L. unfold ip_string. rewrite to4_4 by exact L. apply v4_string_quad; assumption. Qed.
Print Assumptions C95_ipv4.

(* The text says the address, and in the short form of RFC 5952. *)
Theorem C95_ipv6 : forall ip, bytes ip -> length ip = 16%nat -> ~ v4_mapped 16 (number ip) ->
  v6_text (ip_string ip) ip /\ exists gs, groups_of gs ip /\ length gs = 8%nat /\ short_text gs (ip_string ip).
Proof.
  intros ip B L M. unfold ip_string. rewrite (proj2 (to4_number ip _ (conj B (conj L eq_refl))) M). rewrite L, Nat.eqb_refl.
  destruct (v6_string_short ip L B) as (gs & G & N & S & T). split; [|exists gs; auto].
  pose proof (short_read gs _ S N T) as R. unfold groups_of in G. unfold flat in R. rewrite <- G in R. exact R.
Qed.
Print Assumptions C95_ipv6.

(* Reading the text gives the address again, the mapped ones too; parse_ip gives the 16-byte form. *)
Theorem C95_read_back : forall ip, bytes ip ->
  (length ip = 16%nat -> parse_ip (ip_string ip) = Ok (Some ip)) /\
  (length ip = 4%nat -> parse_ip (ip_string ip) = Ok (Some (v4_prefix ++ ip)%list)).
Proof.
  intros ip B. split; intro L.
  - apply C37_ipv6_exact. destruct (mapped_dec 16 (number ip)) as [M|M]; [|right; apply C95_ipv6; assumption].
    left. unfold ip_string. rewrite (proj1 (to4_number ip _ (conj B (conj L eq_refl))) M). exists (skipn 12 ip). split.
    + apply v4_string_quad; [rewrite skipn_length; lia|]. intros b I. apply B. rewrite <- (firstn_skipn 12 ip). apply in_or_app. right. exact I.
    + rewrite <- (firstn_skipn 12 ip) at 1. f_equal. pose proof (proj1 (to4_number ip _ (conj B (conj L eq_refl))) M) as T.
      unfold to4 in T. rewrite L in T. change (16 =? 4)%nat with false in T. change (16 =? 16)%nat with true in T. cbn [andb] in T.
      unfold list_eqb in T. destruct (list_eq_dec Z.eq_dec (firstn 12 ip) v4_prefix) as [E|E]; [exact E|discriminate T].
  - apply C37_ipv6_exact. left. exists ip. split; [apply C95_ipv4; assumption|reflexivity].
Qed.
Print Assumptions C95_read_back.

(* ----- networks ----- *)

Lemma mask_length_of : forall m n t, mask_size m = (n, t) -> t <> 0 -> mask_length m 0 = Some n.
Proof. intros m n t H N. unfold mask_size in H. destruct (mask_length m 0); congruence. Qed.

(* Full statement: the text of every network is a text of that network.  See C95_network_refuted. *)
Theorem C95_network_partial : forall net w c l, w = 4%nat \/ w = 16%nat -> is_block net w c l -> ~ v4_mapped w c ->
  prefix_text (net_string net) w c l.
Proof.
  intros net w c l W H M. pose proof (block_size _ _ _ _ H) as S. destruct H as [[Hl Hc] [(ip & E & Bi & Li & Ni) [Bm [Lm Nm]]]].
  assert (S' : mask_length (net_mask net) 0 = Some l) by (eapply mask_length_of; [exact S|lia]).
  assert (T : net_string net = ip_string ip +++ "/" +++ dec_text l).
  { unfold net_string, network_number_and_mask. rewrite E, Lm. destruct W as [->| ->].
    - rewrite to4_4 by exact Li. rewrite Li. change (4 =? 4)%nat with true. cbv iota. rewrite S'. reflexivity.
    - rewrite (proj2 (to4_number ip c (conj Bi (conj Li Ni))) M). rewrite Li. change (16 =? 16)%nat with true. change (16 =? 4)%nat with false. cbv iota.
      rewrite Li. change (16 =? 4)%nat with false. cbv iota. rewrite S'. reflexivity. }
  exists (ip_string ip), (dec_text l), ip. split; [exact T|]. split; [|split; [|split; [lia|]]].
  - destruct W as [->| ->]; [left|right]; (split; [reflexivity|]); [apply C95_ipv4; assumption|].
    apply C95_ipv6; try assumption. rewrite Ni. exact M.
  - apply dec_text_decimal. destruct W as [->| ->]; lia.
  - rewrite Ni, Hc. lia.
Qed.
Print Assumptions C95_network_partial.

(* An IPv4-mapped network is written as one of IPv4. *)
Theorem C95_network_refuted : exists net c l c' l', is_block net 16 c l /\ prefix_text (net_string net) 4 c' l'.
Proof.
  destruct (parse_prefix_inv "::ffff:10.0.0.0/104" _ _ eq_refl) as [w [base [l Ht]]].
  destruct (parse_prefix _ _ _ _ Ht) as [ip [net [E [Hb _]]]]. assert (E' := E). vm_compute in E'. injection E' as Ei En.
  destruct (block_ip _ _ _ _ Hb) as [_ [Hw _]]. rewrite <- En in Hw. vm_compute in Hw. subst w.
  exists net, base, l. rewrite <- En. assert (T : net_string (mkNet (Some [0; 0; 0; 0; 0; 0; 0; 0; 0; 0; 255; 255; 10; 0; 0; 0]) [255; 255; 255; 255; 255; 255; 255; 255; 255; 255; 255; 255; 255; 0; 0; 0]) = "10.0.0.0/8") by (vm_compute; reflexivity).
  rewrite T. destruct (parse_prefix_inv "10.0.0.0/8" _ _ eq_refl) as [w [base' [l' Ht']]].
  destruct (parse_prefix _ _ _ _ Ht') as [ip' [net' [E' [Hb' _]]]]. vm_compute in E'. injection E' as <- <-.
  destruct (block_ip _ _ _ _ Hb') as [_ [Hw' _]]. vm_compute in Hw'. subst w.
  exists base', l'. split; [rewrite En; exact Hb|exact Ht'].
Qed.
Print Assumptions C95_network_refuted.

(* Its text is that of the network of the last four bytes. *)
Theorem C95_mapped : forall net c l, is_block net 16 c l -> v4_mapped 16 c ->
  96 <= l /\ prefix_text (net_string net) 4 (c - 65535 * 2 ^ 32) (l - 96).
Proof.
  intros net c l H M. pose proof H as [[Hl Hc] [(ip & E & Bi & Li & Ni) [Bm [Lm Nm]]]].
  assert (T : to4 ip = Some (skipn 12 ip)) by (apply (proj1 (to4_number ip c (conj Bi (conj Li Ni)))); exact M). destruct M as [_ M].
  assert (L96 : 96 <= l).
  { destruct (Z_le_gt_dec 96 l) as [?|G]; [assumption|exfalso]. unfold size in Hc. change (8 * Z.of_nat 16) with 128 in *.
    apply Z.mod_divide in Hc; [|apply Z.pow_nonzero; lia]. destruct Hc as [q Hq].
    replace (128 - l) with (33 + (95 - l)) in Hq by lia. rewrite Z.pow_add_r in Hq by lia.
    set (x := q * 2 ^ (95 - l)). assert (c = x * 2 ^ 33) by (unfold x; rewrite Hq; ring). clearbody x. lia. }
  assert (S4 : size 16 l = size 4 (l - 96)) by (unfold size; f_equal; lia).
  assert (P4 : 0 < size 4 (l - 96) <= 2 ^ 32).
  { unfold size. change (8 * Z.of_nat 4) with 32. change (8 * Z.of_nat 16) with 128 in Hl. split; [apply Z.pow_pos_nonneg; lia|apply Z.pow_le_mono_r; lia]. }
  assert (D : forall q, bytes q -> length q = 16%nat -> bytes (skipn 12 q) /\ length (skipn 12 q) = 4%nat /\ number (skipn 12 q) = number q mod 2 ^ 32).
  { intros q B L. assert (B' : bytes (skipn 12 q)) by (intros b I; apply B; rewrite <- (firstn_skipn 12 q); apply in_or_app; right; exact I).
    assert (L' : length (skipn 12 q) = 4%nat) by (rewrite skipn_length; lia). split; [exact B'|]. split; [exact L'|].
    rewrite <- (firstn_skipn 12 q) at 2. rewrite number_app, L'. change (256 ^ Z.of_nat 4) with (2 ^ 32).
    rewrite Z.add_comm, Z.mod_add by lia. symmetry. apply Z.mod_small. pose proof (number_bound _ B') as Q. rewrite L' in Q. exact Q. }
  split; [exact L96|]. destruct (D ip Bi Li) as (B1 & L1 & N1). destruct (D _ Bm Lm) as (B2 & L2 & N2).
  set (net' := mkNet (Some (skipn 12 ip)) (skipn 12 (net_mask net))).
  replace (net_string net) with (net_string net').
  - apply C95_network_partial; [left; reflexivity| |intros [Q _]; discriminate Q]. split; [|split].
    + split; [change (8 * Z.of_nat 16) with 128 in Hl; change (8 * Z.of_nat 4) with 32; lia|]. rewrite <- S4.
      replace (c - 65535 * 2 ^ 32) with (c - 65535 * (2 ^ (l - 96)) * size 16 l).
      * replace (c - 65535 * 2 ^ (l - 96) * size 16 l) with (c + (- (65535 * 2 ^ (l - 96))) * size 16 l) by ring. rewrite Z.mod_add by lia. exact Hc.
      * f_equal. rewrite <- Z.mul_assoc. f_equal. rewrite S4. unfold size. change (8 * Z.of_nat 4) with 32. change (8 * Z.of_nat 16) with 128 in Hl. rewrite <- Z.pow_add_r by lia. f_equal. lia.
    + exists (skipn 12 ip). split; [reflexivity|]. split; [exact B1|]. split; [exact L1|]. rewrite N1, Ni.
      replace c with (c - 65535 * 2 ^ 32 + 65535 * 2 ^ 32) at 1 by lia. rewrite Z.mod_add by lia. apply Z.mod_small. lia.
    + change (net_mask net') with (skipn 12 (net_mask net)). split; [exact B2|]. split; [exact L2|]. rewrite N2, Nm, S4. change (2 ^ (8 * Z.of_nat 16)) with (2 ^ 96 * 2 ^ 32). change (2 ^ (8 * Z.of_nat 4)) with (2 ^ 32).
      replace (2 ^ 96 * 2 ^ 32 - size 4 (l - 96)) with (2 ^ 32 - size 4 (l - 96) + (2 ^ 96 - 1) * 2 ^ 32) by lia. rewrite Z.mod_add by lia. apply Z.mod_small. lia.
  - unfold net_string, network_number_and_mask, net'. cbn [net_ip net_mask]. rewrite E, T, (to4_4 _ L1), L1, L2, Lm. reflexivity.
Qed.
Print Assumptions C95_mapped.

(* ----- the functions ----- *)

(* n is the whole number z. *)
Definition is_whole (n : FuncModel.number) (z : Z) : Prop := exists p d, n = Fin p d /\ num d = z * 2 ^ Z.of_nat (den d).

Lemma whole_spec : forall n z, whole n = Some z <-> is_whole n z.
Proof.
  intros [p d|b] z; unfold is_whole; cbn [whole]; [|split; [discriminate|intros (p & d & H & _); discriminate H]].
  assert (P : 0 < pow2 (den d)) by (unfold pow2; apply Z.pow_pos_nonneg; lia). unfold big_int. unfold accuracy_of. split.
  - intro H. exists p, d. split; [reflexivity|]. fold (pow2 (den d)). destruct (_ <? _) eqn:E1; [discriminate H|]. destruct (num d <? _) eqn:E2; [discriminate H|].
    injection H as <-. lia.
  - intros (p' & d' & E & H). injection E as <- <-. fold (pow2 (den d)) in H. rewrite H, Z.quot_mul by lia. rewrite Z.ltb_irrefl. reflexivity.
Qed.

Lemma recover_no_panic : forall A (r : result A) m, recover r <> Panic m.
Proof. intros A [x|e|e] m; discriminate. Qed.

Lemma call_host : forall early m1 m2 s n,
  call early cidrhost_func [Val m1 (SStr s) []; Val m2 (SNum n) []] =
  do ip <- cidr_host s (whole n); Ok (with_marks (m1 ++ m2)%list (str_val (ip_string ip))).
Proof.
  intros. unfold call. cbn - [cidr_host ip_string]. rewrite ?app_nil_r. destruct (cidr_host s (whole n)) as [x|e|e] eqn:R; try reflexivity.
  apply recover_no_panic in R. contradiction.
Qed.
Lemma call_netmask : forall early m s,
  call early cidrnetmask_func [Val m (SStr s) []] = do ip <- cidr_netmask s; Ok (with_marks m (str_val (ip_string ip))).
Proof.
  intros. unfold call. cbn - [cidr_netmask ip_string]. rewrite ?app_nil_r. destruct (cidr_netmask s) as [x|e|e] eqn:R; try reflexivity.
  apply recover_no_panic in R. contradiction.
Qed.
Lemma call_subnet : forall early m1 m2 m3 s b n,
  call early cidrsubnet_func [Val m1 (SStr s) []; Val m2 (SNum b) []; Val m3 (SNum n) []] =
  do net <- cidr_subnet s (whole b) (whole n); Ok (with_marks (m1 ++ m2 ++ m3)%list (str_val (net_string net))).
Proof.
  intros. unfold call. cbn - [cidr_subnet net_string]. rewrite ?app_nil_r. destruct (cidr_subnet s (whole b) (whole n)) as [x|e|e] eqn:R; try reflexivity.
  apply recover_no_panic in R. contradiction.
Qed.

(* The result is the text t with exactly the marks of the arguments. *)
Definition gives (r : result value) (ms : list mark) (t : string) : Prop :=
  exists ms', r = Ok (Val ms' (SStr t) []) /\ forall m, In m ms' <-> In m ms.
Lemma gives_text : forall ms t, gives (Ok (with_marks ms (str_val t))) ms t.
Proof.
  intros ms t. exists (marks_of (with_marks ms (str_val t))). split; [reflexivity|]. intro m. rewrite marks_with. cbn [str_val FuncModel.plain marks_of In]. tauto.
Qed.

(* t is a text of the address c of family w. *)
Definition address_is (t : string) (w : nat) (c : Z) : Prop :=
  exists ip, (w = 4%nat /\ quad t ip \/ w = 16%nat /\ v6_text t ip) /\ number ip = c.

Theorem C95_host_partial : forall early m1 m2 s w base l n k, prefix_text s w base l -> is_whole n k ->
  ~ v4_mapped w base -> w = 4%nat \/ k < 2 ^ 63 -> 0 <= host_index w l k < size w l -> ~ v4_mapped w (base + host_index w l k) ->
  exists t, gives (call early cidrhost_func [Val m1 (SStr s) []; Val m2 (SNum n) []]) (m1 ++ m2)%list t /\
    address_is t w (base + host_index w l k).
Proof.
  intros early m1 m2 s w base l n k T N M K I M'. apply whole_spec in N.
  destruct (proj1 (C41_host_partial s w base l k T M K) I) as (ip & E & B & L & C).
  exists (ip_string ip). rewrite call_host, N, E. split; [apply gives_text|]. exists ip. split; [|exact C].
  destruct T as (_ & _ & _ & _ & [[-> _]|[-> _]] & _); [left|right]; (split; [reflexivity|]); [apply C95_ipv4; assumption|].
  apply C95_ipv6; try assumption. rewrite C. exact M'.
Qed.
Print Assumptions C95_host_partial.

(* The text of a subnet can be given to the functions again as a prefix. *)
Theorem C95_subnet_partial : forall early m1 m2 m3 s w base l b n k j, prefix_text s w base l -> is_whole b k -> is_whole n j ->
  0 <= k < 2 ^ 62 -> 0 <= j < 2 ^ k -> w = 4%nat \/ j < 2 ^ 64 -> l + k <= 8 * Z.of_nat w -> ~ v4_mapped w (base + j * size w (l + k)) ->
  exists t, gives (call early cidrsubnet_func [Val m1 (SStr s) []; Val m2 (SNum b) []; Val m3 (SNum n) []]) (m1 ++ m2 ++ m3)%list t /\
    prefix_text t w (base + j * size w (l + k)) (l + k).
Proof.
  intros early m1 m2 m3 s w base l b n k j T B N K J F L M. apply whole_spec in B, N.
  destruct (proj1 (C41_subnet_partial s w base l k j T K (proj1 J) F) (conj L (proj2 J))) as (net & E & H & _).
  exists (net_string net). rewrite call_subnet, B, N, E. split; [apply gives_text|]. apply C95_network_partial; try assumption.
  destruct T as (_ & _ & _ & _ & [[-> _]|[-> _]] & _); [left|right]; reflexivity.
Qed.
Print Assumptions C95_subnet_partial.

Theorem C95_netmask : forall early m s base l, prefix_text s 4 base l ->
  exists t, gives (call early cidrnetmask_func [Val m (SStr s) []]) m t /\ address_is t 4 (2 ^ 32 - 2 ^ (32 - l)).
Proof.
  intros early m s base l T. destruct (C42_netmask s base l T) as (ip & E & B & L & C). exists (ip_string ip).
  rewrite call_netmask, E. split; [apply gives_text|]. exists ip. split; [left; split; [reflexivity|apply C95_ipv4; assumption]|exact C].
Qed.
Print Assumptions C95_netmask.

(* Numbers that are not whole are refused. *)
Theorem C95_fraction : forall early m1 m2 m3 s n k, (forall z, ~ is_whole n z) ->
  (exists e, call early cidrhost_func [Val m1 (SStr s) []; Val m2 (SNum n) []] = Err e) /\
  (exists e, call early cidrsubnet_func [Val m1 (SStr s) []; Val m2 (SNum n) []; Val m3 (SNum k) []] = Err e) /\
  (exists e, call early cidrsubnet_func [Val m1 (SStr s) []; Val m2 (SNum k) []; Val m3 (SNum n) []] = Err e).
Proof.
  intros early m1 m2 m3 s n k H. assert (W : whole n = None) by (destruct (whole n) as [z|] eqn:E; [apply whole_spec in E; exfalso; exact (H z E)|reflexivity]).
  rewrite call_host, !call_subnet, W. split; [eexists; reflexivity|]. split; [eexists; reflexivity|].
  unfold cidr_subnet. destruct (CidrModel.to_int (whole k)) as [z|e|e]; eexists; reflexivity.
Qed.
Print Assumptions C95_fraction.

(* cidrsubnets: the texts in order, of the networks that C40 describes. *)
Definition num_arg (mn : list mark * FuncModel.number) : value := Val (fst mn) (SNum (snd mn)) [].

Lemma call_subnets : forall early m s ns,
  call early cidrsubnets_func (Val m (SStr s) [] :: map num_arg ns) =
  do nets <- cidr_subnets s (map (fun mn => whole (snd mn)) ns);
  Ok (with_marks (m ++ flat_map fst ns)%list (list_val str (map (fun n => str_val (net_string n)) nets))).
Proof.
  intros early m s ns.
  assert (P : pair_args [] (Some (plain_param numt)) (map num_arg ns) = Some (map (fun mn => (plain_param numt, num_arg mn)) ns)).
  { induction ns as [|x ns IH]; [reflexivity|]. cbn [map pair_args]. rewrite IH. reflexivity. }
  assert (C : check_args (map (fun mn => (plain_param numt, num_arg mn)) ns) = Ok false).
  { clear P. induction ns as [|x ns IH]; [reflexivity|]. cbn [map]. cbn - [check_args]. cbn. exact IH. }
  assert (U : existsb unknown_arg (map (fun mn => (plain_param numt, num_arg mn)) ns) = false).
  { clear P C. induction ns as [|x ns IH]; [reflexivity|]. cbn [map existsb]. rewrite IH. reflexivity. }
  assert (R : mapr number_arg (map seen (map (fun mn => (plain_param numt, num_arg mn)) ns)) = Ok (map (fun mn => whole (snd mn)) ns)).
  { clear P C U. induction ns as [|x ns IH]; [reflexivity|]. cbn [map mapr]. rewrite IH. reflexivity. }
  assert (K : flat_map taken_marks (map (fun mn => (plain_param numt, num_arg mn)) ns) = flat_map fst ns).
  { clear P C U R. induction ns as [|x ns IH]; [reflexivity|]. cbn [map flat_map]. rewrite IH. cbn. rewrite app_nil_r. reflexivity. }
  unfold call. cbn [cidrsubnets_func f_params f_var f_type f_impl pair_args]. rewrite P.
  change (check_args ((plain_param str, Val m (SStr s) []) :: map (fun mn => (plain_param numt, num_arg mn)) ns))
    with (check_args (map (fun mn => (plain_param numt, num_arg mn)) ns)). rewrite C. cbn [bindr map existsb flat_map static no_panic].
  rewrite U, K. cbn [orb]. change (unknown_arg (plain_param str, Val m (SStr s) [])) with false. cbn [orb].
  change (seen (plain_param str, Val m (SStr s) [])) with (str_val s). change (as_string (str_val s)) with (Ok s). cbn [bindr]. rewrite R. cbn [bindr].
  replace (taken_marks (plain_param str, Val m (SStr s) [])) with m by (cbn; rewrite app_nil_r; reflexivity).
  destruct (cidr_subnets s _) as [x|e|e] eqn:Q; try reflexivity. apply recover_no_panic in Q. contradiction.
Qed.

Theorem C95_subnets_partial : forall early m s ns r,
  call early cidrsubnets_func (Val m (SStr s) [] :: map num_arg ns) = Ok r ->
  exists w base l bs cs ts, prefix_text s w base l /\ Forall2 (fun mn b => is_whole (snd mn) b) ns bs /\
    map snd cs = map (Z.add l) bs /\ first_fit w base cs /\ Forall (inside w base l) cs /\ ForallOrdPairs (before w) cs /\
    shape_of r = SList str /\ elems r = named (map str_val ts) /\
    (forall k, In k (marks_of r) <-> In k m \/ exists mn, In mn ns /\ In k (fst mn)) /\
    Forall2 (fun t x => ~ v4_mapped w (fst x) /\ prefix_text t w (fst x) (snd x) \/
      v4_mapped w (fst x) /\ prefix_text t 4 (fst x - 65535 * 2 ^ 32) (snd x - 96)) ts cs.
Proof.
  intros early m s ns r H. rewrite call_subnets in H. apply bindr_Ok in H as (nets & E & H).
  destruct (C40_subnets _ _ _ E) as (w & base & l & bs & cs & T & A & _ & L & B & I & O & F).
  exists w, base, l, bs, cs, (map net_string nets). split; [exact T|].
  assert (W : Forall2 (fun mn b => is_whole (snd mn) b) ns bs).
  { clear - A. revert bs A. induction ns as [|x ns IH]; intros [|b bs] A; try discriminate A; constructor.
    - apply whole_spec. cbn in A. congruence.
    - apply IH. cbn in A. congruence. }
  assert (Er : r = with_marks (m ++ flat_map fst ns)%list (list_val str (map (fun n => str_val (net_string n)) nets))) by congruence. rewrite Er. do 5 (split; [assumption|]). split; [reflexivity|]. split; [|split].
  - rewrite elems_with. unfold list_val. cbn [elems]. rewrite map_map. reflexivity.
  - intro k. rewrite marks_with, in_app_iff, in_flat_map. cbn [list_val marks_of In]. clear. tauto.
  - assert (W4 : w = 4%nat \/ w = 16%nat) by (destruct T as (_ & _ & _ & _ & [[-> _]|[-> _]] & _); auto).
    clear - B W4. induction B as [|n c nets cs H B IH]; cbn [map]; constructor; [|exact IH].
    destruct (mapped_dec w (fst c)) as [M|M]; [right|left]; (split; [exact M|]); [|apply C95_network_partial; assumption].
    pose proof M as [-> _]. apply C95_mapped; assumption.
Qed.
Print Assumptions C95_subnets_partial.

Example C95_sample :
  call (fun _ => []) cidrhost_func [Val ["Sensitive"] (SStr "fd00:0:0:1:0:0:0:0/64") []; num_val (int_val 10)] = Ok (Val ["Sensitive"] (SStr "fd00:0:0:1::a") [])
  /\ call (fun _ => []) cidrsubnet_func [str_val "10.0.0.0/8"; num_val (int_val 8); num_val (int_val 2)] = Ok (str_val "10.2.0.0/16")
  /\ call (fun _ => []) cidrnetmask_func [str_val "172.16.0.0/12"] = Ok (str_val "255.240.0.0")
  /\ call (fun _ => []) cidrsubnets_func [str_val "fe80::/48"; Val ["a"] (SNum (int_val 16)) []; num_val (int_val 16)]
     = Ok (Val ["a"] (SList str) (named [str_val "fe80::/64"; str_val "fe80:0:0:1::/64"]))
  /\ (exists e, call (fun _ => []) cidrhost_func [str_val "10.0.0.0/8"; num_val (Fin 512 (mkD 1 1))] = Err e)
  /\ ip_string [32; 1; 13; 184; 0; 0; 0; 1; 0; 0; 0; 0; 0; 0; 0; 1] = "2001:db8:0:1::1"
  /\ ip_string [0; 1; 0; 0; 0; 0; 0; 1; 0; 0; 0; 0; 0; 1; 171; 205] = "1::1:0:0:1:abcd".
Proof.
  do 4 (split; [vm_compute; reflexivity|]). split; [eexists; vm_compute; reflexivity|].
  split; vm_compute; reflexivity.
Qed.
