(* Property theorems for internal/ipaddr: C36 to C39.  Model: IpModel.v; specification
   (quad, groups, v4_text, v6_text, decimal, number): IpSpec.v. *)

From Verif Require Import Base IpModel IpSpec IpProofs IpProofs6 IpProofs7 IpProofs8.

(* -------------------------------------------------------------------- C36 *)

Lemma parse_ip_v4 : forall s q, parse_ip s = Ok (Some (v4_prefix ++ q)) /\ first_sep s = Some false <-> quad s q.
Proof.
  intros s q. destruct (parse_ip_spec s) as [o [Ho Hspec]]. split.
  - intros [H Hs]. rewrite Ho in H. inversion H; subst. destruct (proj1 (Hspec _) eq_refl) as [[q' [Hq E]]|H6].
    + change (v4_prefix ++ q = v4_prefix ++ q') in E. apply app_inv_head in E. subst q'. exact Hq.
    + apply v6_sep in H6. congruence.
  - intros Hq. split; [|eapply quad_sep; eassumption]. rewrite Ho. f_equal. apply Hspec. left. exists q; auto.
Qed.

(* A text without a colon is accepted exactly if it is a dotted quad, with those bytes. *)
Theorem C36_ipv4_exact : forall s, (forall a b, s <> (a +++ ":" +++ b)) ->
  forall ip, parse_ip s = Ok (Some ip) <-> exists q, quad s q /\ ip = v4_prefix ++ q.
Proof.
  intros s Hc ip. destruct (parse_ip_spec s) as [o [Ho Hspec]].
  assert (N : forall x, ~ v6_text s x).
  { intros x Hx. inversion Hx as [? ? Hg Hl|sl sr bl br ? ? ?]; subst.
    - inversion Hg as [? ? Hg'|? ? Hq|t n r b]; subst.
      + inversion Hg' as [|t n r b]; subst; [discriminate|]. exact (Hc t r eq_refl).
      + inversion Hq; subst; discriminate.
      + exact (Hc t r eq_refl).
    - exact (Hc sl (String ":" sr) eq_refl). }
  rewrite Ho. split.
  - intros H. inversion H; subst. destruct (proj1 (Hspec ip) eq_refl) as [H4|H6]; [exact H4|]. destruct (N _ H6).
  - intros H. f_equal. apply Hspec. left; exact H.
Qed.
Print Assumptions C36_ipv4_exact.

(* A dotted quad denotes exactly one address: the result is a function of the text. *)
Theorem C36_quad_unique : forall s q q', quad s q -> quad s q' -> q = q'.
Proof.
  intros s q q' H H'. apply parse_ip_v4 in H as [H _]. apply parse_ip_v4 in H' as [H' _].
  rewrite H in H'. inversion H'. reflexivity.
Qed.
Print Assumptions C36_quad_unique.

Example C36_nonvacuous :
  quad "127.001.002.255" [127; 1; 2; 255]%Z /\
  parse_ip "127.001.002.255" = Ok (Some (v4_prefix ++ [127; 1; 2; 255]%Z)) /\
  parse_ip "127.0.0.256" = Ok None /\ parse_ip "1.2.3" = Ok None /\ parse_ip "1.2..4" = Ok None /\
  parse_ip "1.2.3.4.5" = Ok None /\ parse_ip "0.-1.0.0" = Ok None /\ parse_ip "" = Ok None.
Proof. split; [apply parse_ip_v4; split; reflexivity|]. repeat split. Qed.

(* -------------------------------------------------------------------- C37 *)

(* A text is accepted exactly if it is a dotted quad or a colon text; a colon text gives its
   16 bytes. *)
Theorem C37_ipv6_exact : forall s ip, parse_ip s = Ok (Some ip) <-> v4_text s ip \/ v6_text s ip.
Proof.
  intros s ip. destruct (parse_ip_spec s) as [o [Ho Hspec]]. rewrite Ho, <- Hspec. split; congruence.
Qed.
Print Assumptions C37_ipv6_exact.

(* A text cannot be read as both kinds, and denotes one address of 16 bytes. *)
Theorem C37_unambiguous : forall s x y, v6_text s x -> v4_text s y \/ v6_text s y ->
  x = y /\ length x = 16 /\ bytes x.
Proof.
  intros s x y Hx Hy.
  assert (H1 : parse_ip s = Ok (Some x)) by (apply C37_ipv6_exact; right; exact Hx).
  assert (H2 : parse_ip s = Ok (Some y)) by (apply C37_ipv6_exact; exact Hy).
  rewrite H1 in H2. assert (E : x = y) by congruence. destruct (v6_bytes _ _ Hx) as [Hb Hl]. split; [exact E|]. split; [exact Hl|exact Hb].
Qed.
Print Assumptions C37_unambiguous.

Example C37_nonvacuous :
  parse_ip "2001:4860:0:2001::68" = Ok (Some [32; 1; 72; 96; 0; 0; 32; 1; 0; 0; 0; 0; 0; 0; 0; 104]%Z) /\
  parse_ip "0:0:0:0:000000:ffff:127.1.2.3" = Ok (Some (v4_prefix ++ [127; 1; 2; 3]%Z)) /\
  parse_ip "::" = Ok (Some (zeros 16)) /\ parse_ip "1::" = Ok (Some ([0; 1]%Z ++ zeros 14)) /\
  parse_ip "123:" = Ok None /\ parse_ip "fe80::1%lo0" = Ok None /\ parse_ip "1::2::3" = Ok None /\
  parse_ip "a1:a2:a3:a4::b1:b2:b3:b4" = Ok None /\ parse_ip "10000::" = Ok None /\ parse_ip ":1" = Ok None /\
  v6_text "2001:4860:0:2001::68" [32; 1; 72; 96; 0; 0; 32; 1; 0; 0; 0; 0; 0; 0; 0; 104]%Z.
Proof.
  repeat split; try reflexivity.
  destruct (proj1 (C37_ipv6_exact "2001:4860:0:2001::68" _) eq_refl) as [[q [Hq E]]|H]; [|exact H].
  discriminate E.
Qed.

(* -------------------------------------------------------------------- C38 *)

(* addr is the text of an address of w bytes with value a, in the 16-byte form ip. *)
Definition address_text (addr : string) (w : nat) (a ip : list Z) : Prop :=
  w = 4 /\ quad addr a /\ ip = v4_prefix ++ a \/ w = 16 /\ v6_text addr a /\ ip = a.

(* nb and m are the network and the mask of address a with prefix length n. *)
Definition is_network (w : nat) (a : list Z) (n : Z) (nb m : list Z) : Prop :=
  (bytes nb /\ length nb = w /\ number nb = number a - number a mod 2 ^ (8 * Z.of_nat w - n) /\
   bytes m /\ length m = w /\ number m = 2 ^ (8 * Z.of_nat w) - 2 ^ (8 * Z.of_nat w - n))%Z.

Lemma is_network_mask : forall addr w a ip p n, address_text addr w a ip -> decimal p n -> (n <= 8 * Z.of_nat w)%Z ->
  is_network w a n (and_bytes a (cidr_mask w (Z.to_nat n))) (cidr_mask w (Z.to_nat n)).
Proof.
  intros addr w a ip p n Ha Hp Hn. apply decimal_pos in Hp.
  assert (Hb : bytes a /\ length a = w) by
    (destruct Ha as [[-> [Hq _]]|[-> [Hq _]]]; [eapply quad_bytes|eapply v6_bytes]; eassumption).
  destruct Hb as [Hb Hl]. unfold is_network.
  split; [apply bytes_and; [exact Hb|apply bytes_mask]|]. split; [apply length_and_mask; exact Hl|].
  split; [rewrite mask_net by (assumption || lia); rewrite Z2Nat.id by lia; reflexivity|].
  split; [apply bytes_mask|]. split; [apply length_mask|].
  rewrite number_mask by lia. rewrite Z2Nat.id by lia. reflexivity.
Qed.

Lemma is_network_unique : forall w a n nb m nb' m', is_network w a n nb m -> is_network w a n nb' m' -> nb = nb' /\ m = m'.
Proof.
  intros w a n nb m nb' m' [H1 [H2 [H3 [H4 [H5 H6]]]]] [H1' [H2' [H3' [H4' [H5' H6']]]]].
  split; apply number_inj; first [assumption|congruence].
Qed.

(* The network's host bits are zero and its mask has n leading ones. *)
Theorem C38_cidr_exact : forall s ip nip m,
  parse_cidr s = Ok (ip, mkNet nip m) <->
  exists addr p n w a nb, s = (addr +++ "/" +++ p) /\ address_text addr w a ip /\ decimal p n /\
    (n <= 8 * Z.of_nat w)%Z /\ nip = Some nb /\ is_network w a n nb m.
Proof.
  intros s ip nip m; split.
  - intros H. destruct (parse_cidr_cases s) as [[e E]|[addr [p [n [ip' [w [q [Es [Hp [Hn [Hq E]]]]]]]]]]]; [congruence|].
    rewrite E in H. inversion H; subst. exists addr, p, n, w, q, (and_bytes q (cidr_mask w (Z.to_nat n))).
    split; [reflexivity|]. split; [exact Hq|]. split; [exact Hp|]. split; [exact Hn|]. split; [reflexivity|].
    eapply is_network_mask; eassumption.
  - intros [addr [p [n [w [a [nb [-> [Ha [Hp [Hn [-> Hnet]]]]]]]]]]].
    rewrite (parse_cidr_complete addr p n ip w a Hp Hn Ha).
    destruct (is_network_unique _ _ _ _ _ _ _ Hnet (is_network_mask _ _ _ _ _ _ Ha Hp Hn)) as [-> ->]. reflexivity.
Qed.
Print Assumptions C38_cidr_exact.

(* The address lies in the network's block of addresses. *)
Theorem C38_address_in_block : forall w a n nb m, is_network w a n nb m -> (0 <= n <= 8 * Z.of_nat w)%Z ->
  (number nb <= number a < number nb + 2 ^ (8 * Z.of_nat w - n))%Z /\ (number nb mod 2 ^ (8 * Z.of_nat w - n) = 0)%Z.
Proof.
  intros w a n nb m [_ [_ [E _]]] Hn. rewrite E.
  assert (Hp : (0 < 2 ^ (8 * Z.of_nat w - n))%Z) by (apply Z.pow_pos_nonneg; lia).
  pose proof (Z.mod_pos_bound (number a) _ Hp).
  split; [lia|]. rewrite (Z.div_mod (number a) (2 ^ (8 * Z.of_nat w - n))) at 1 by lia.
  replace (2 ^ (8 * Z.of_nat w - n) * (number a / 2 ^ (8 * Z.of_nat w - n)) + number a mod 2 ^ (8 * Z.of_nat w - n) -
    number a mod 2 ^ (8 * Z.of_nat w - n))%Z with ((number a / 2 ^ (8 * Z.of_nat w - n)) * 2 ^ (8 * Z.of_nat w - n))%Z by ring.
  apply Z.mod_mul. lia.
Qed.
Print Assumptions C38_address_in_block.

(* Full statement: parse_cidr s = Ok (ip, net) -> contains net ip = true, where contains is
   Go's IPNet.Contains.  It fails exactly for IPv6 texts of IPv4-mapped addresses with a
   prefix shorter than 96 bits. *)
Theorem C38_contains_partial : forall addr p n w a ip net, address_text addr w a ip -> decimal p n ->
  parse_cidr (addr +++ "/" +++ p) = Ok (ip, net) ->
  (contains net ip = true <-> ~ (w = 16 /\ firstn 12 a = v4_prefix /\ (n < 96)%Z)).
Proof.
  intros addr p n w a ip net Ha Hp H.
  destruct (parse_cidr_cases (addr +++ "/" +++ p)) as [[e E]|[addr' [p' [n' [ip' [w' [a' [Es [Hp' [Hn [Hq E]]]]]]]]]]]; [congruence|].
  rewrite E in H. inversion H; subst ip' net.
  assert (Hsl : forall x w a ip, address_text x w a ip -> index_byte x "/" = None)
    by (intros x w0 a0 ip0 [[_ [Hx _]]|[_ [Hx _]]]; [eapply quad_slash|eapply v6_slash]; eassumption).
  assert (addr = addr' /\ p = p') as [<- <-].
  { pose proof (index_byte_app addr "/" p (Hsl _ _ _ _ Ha)) as I1.
    pose proof (index_byte_app addr' "/" p' (Hsl _ _ _ _ Hq)) as I2.
    change (addr' +++ String "/" p') with (addr' +++ "/" +++ p') in I2.
    change (addr +++ String "/" p) with (addr +++ "/" +++ p) in I1. rewrite <- Es in I2. rewrite I1 in I2. inversion I2 as [L].
    pose proof (upto_append addr ("/" +++ p)) as U1. pose proof (upto_append addr' ("/" +++ p')) as U2.
    pose proof (from_append addr ("/" +++ p)) as F1. pose proof (from_append addr' ("/" +++ p')) as F2.
    rewrite <- Es, <- L in U2, F2. rewrite U1 in U2. rewrite F1 in F2. inversion U2. inversion F2. split; reflexivity. }
  assert (n' = n) as -> by (eapply decimal_unique; eassumption).
  pose proof (decimal_pos _ _ Hp) as Hpos.
  destruct Hq as [[-> [Hq ->]]|[-> [Hq ->]]].
  - rewrite contains_v4 by (eapply quad_bytes; eassumption). split; [|reflexivity]. intros _ [Hw _].
    destruct Ha as [[-> _]|[-> [Ha _]]]; [discriminate|]. eapply v4_v6_disjoint; [exists a'; split; [exact Hq|reflexivity]|exact Ha].
  - destruct Ha as [[-> [Ha _]]|[-> [Ha E2]]]; [exfalso; eapply v4_v6_disjoint; [exists a; split; [exact Ha|reflexivity]|exact Hq]|].
    subst a'. destruct (v6_bytes _ _ Hq) as [Hb Hl]. rewrite contains_v6 by (try assumption; lia).
    split.
    + intros [H1|H1] [_ [H2 H3]]; [contradiction|lia].
    + intros Hno. destruct (list_eq_dec Z.eq_dec (firstn 12 a) v4_prefix) as [Hm|Hm]; [|left; exact Hm].
      destruct (Z_lt_ge_dec n 96) as [Hlt|Hge]; [exfalso; apply Hno; auto|right; lia].
Qed.
Print Assumptions C38_contains_partial.

Theorem C38_contains_refuted : exists s ip net, parse_cidr s = Ok (ip, net) /\ contains net ip = false.
Proof. do 3 eexists. split; [apply (eq_refl (parse_cidr "::ffff:10.0.0.1/64"))|]. reflexivity. Qed.

Example C38_nonvacuous :
  parse_cidr "135.104.0.1/24" = Ok (v4_prefix ++ [135; 104; 0; 1], mkNet (Some [135; 104; 0; 0]) [255; 255; 255; 0])%Z /\
  parse_cidr "abcd:2345::/31" =
    Ok (171 :: 205 :: 35 :: 69 :: zeros 12, mkNet (Some (171 :: 205 :: 35 :: 68 :: zeros 12)) (255 :: 255 :: 255 :: 254 :: zeros 12))%Z /\
  (exists e, parse_cidr "192.168.1.1/35" = Err e) /\ (exists e, parse_cidr "2001:db8::1/-1" = Err e) /\
  (exists e, parse_cidr "192.168.1.1/255.255.255.0" = Err e) /\ (exists e, parse_cidr "10.0.0.0" = Err e) /\
  contains (mkNet (Some [135; 104; 0; 0]) [255; 255; 255; 0])%Z (v4_prefix ++ [135; 104; 0; 1])%Z = true /\
  contains (mkNet (Some [135; 104; 0; 0]) [255; 255; 255; 0])%Z (v4_prefix ++ [135; 104; 1; 1])%Z = false.
Proof. repeat split; try reflexivity; eexists; reflexivity. Qed.

(* -------------------------------------------------------------------- C39 *)

(* Every index and slice expression of the parsers is within bounds, on every text. *)
Theorem C39_no_panic : forall s,
  (exists o, parse_ip s = Ok o) /\ (exists o, parse_ipv4 s = Ok o) /\ (exists o, parse_ipv6 s = Ok o) /\
  ((exists r, parse_cidr s = Ok r) \/ (exists e, parse_cidr s = Err e)).
Proof.
  intros s. split; [destruct (parse_ip_spec s) as [o [H _]]; eauto|].
  split; [destruct (parse_ipv4_spec s) as [o [H _]]; eauto|].
  split; [destruct (parse_ipv6_spec s) as [o [H _]]; eauto|].
  destruct (parse_cidr_cases s) as [H|[? [? [? [? [? [? [_ [_ [_ [_ H]]]]]]]]]]]; eauto.
Qed.
Print Assumptions C39_no_panic.

(* The model does check bounds. *)
Example C39_nonvacuous : idx "ab" 2 = Panic "index out of range" /\ from "ab" 3 = Panic "slice bounds out of range" /\
  store [0; 0]%Z 2 1 = Panic "index out of range" /\ load [0; 0]%Z 2 = Panic "index out of range".
Proof. repeat split. Qed.
