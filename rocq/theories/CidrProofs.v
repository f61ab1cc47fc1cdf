(* Lemmas about the network functions. *)
From Verif Require Import Base IpModel IpSpec IpProofs IpProofs6 IpProofs7 IpProofs8 CidrModel CidrSpec.
From Coq Require Import ZifyBool ZifyNat ZifyN.
Ltac Zify.zify_post_hook ::= Z.div_mod_to_equations.

(* ------------------------------------------------------------- numbers *)

Lemma pow256_2 : forall l, (256 ^ Z.of_nat l = 2 ^ (8 * Z.of_nat l))%Z.
Proof. intros l. rewrite Z.pow_mul_r by lia. reflexivity. Qed.

Lemma to_bytes_length : forall l z, length (to_bytes l z) = l.
Proof. induction l as [|l IH]; intros z; [reflexivity|]. cbn [to_bytes]. rewrite app_length, IH. simpl. lia. Qed.
Lemma to_bytes_bytes : forall l z, bytes (to_bytes l z).
Proof.
  induction l as [|l IH]; intros z; [intros b []|]. cbn [to_bytes]. apply bytes_snoc. split; [apply IH|].
  pose proof (Z.mod_pos_bound z 256). lia.
Qed.
Lemma to_bytes_number : forall l z, (0 <= z < 256 ^ Z.of_nat l)%Z -> number (to_bytes l z) = z.
Proof.
  induction l as [|l IH]; intros z H.
  - change (256 ^ Z.of_nat 0)%Z with 1%Z in H. cbn. lia.
  - cbn [to_bytes]. rewrite number_snoc, IH.
    + pose proof (Z.div_mod z 256). lia.
    + rewrite pow256 in H. split; [apply Z.div_pos; lia|]. apply Z.div_lt_upper_bound; lia.
Qed.

Lemma inc_snoc : forall l x, rev (inc_loop (rev (l ++ [x]))) =
  if (0 <? (x + 1) mod 256)%Z then l ++ [((x + 1) mod 256)%Z] else rev (inc_loop (rev l)) ++ [((x + 1) mod 256)%Z].
Proof.
  intros l x. rewrite rev_app_distr. cbn [rev app inc_loop]. cbv zeta. destruct (0 <? (x + 1) mod 256)%Z; cbn [rev]; [|reflexivity].
  rewrite rev_involutive. reflexivity.
Qed.
Lemma dec_snoc : forall l x, rev (dec_loop (rev (l ++ [x]))) =
  if ((x - 1) mod 256 <? 255)%Z then l ++ [((x - 1) mod 256)%Z] else rev (dec_loop (rev l)) ++ [((x - 1) mod 256)%Z].
Proof.
  intros l x. rewrite rev_app_distr. cbn [rev app dec_loop]. cbv zeta. destruct ((x - 1) mod 256 <? 255)%Z; cbn [rev]; [|reflexivity].
  rewrite rev_involutive. reflexivity.
Qed.

Lemma inc_number : forall l, bytes l ->
  bytes (rev (inc_loop (rev l))) /\ length (rev (inc_loop (rev l))) = length l /\
  number (rev (inc_loop (rev l))) = ((number l + 1) mod 256 ^ Z.of_nat (length l))%Z.
Proof.
  induction l as [|x l IH] using rev_ind; intros Hb.
  - cbn. split; [intros b []|]. split; reflexivity.
  - apply bytes_snoc in Hb as [Hb Hx]. destruct (IH Hb) as [IH1 [IH2 IH3]]. rewrite inc_snoc.
    pose proof (number_bound l Hb) as HB. set (P := (256 ^ Z.of_nat (length l))%Z) in *.
    assert (Hlen : length (l ++ [x]) = S (length l)) by (rewrite app_length; simpl; lia).
    rewrite Hlen, number_snoc, pow256. fold P.
    destruct (Z.eq_dec x 255) as [->|Hne].
    + change ((255 + 1) mod 256)%Z with 0%Z. cbn [Z.ltb Z.compare].
      split; [apply bytes_snoc; split; [exact IH1|lia]|]. split; [rewrite app_length, IH2; simpl; lia|].
      rewrite number_snoc, IH3.
      destruct (Z.eq_dec (number l + 1) P) as [E|E].
      * rewrite E, Z.mod_same by lia. replace (number l * 256 + 255 + 1)%Z with (P * 256)%Z by lia. rewrite Z.mod_same by lia. lia.
      * rewrite !Z.mod_small by lia. lia.
    + assert ((x + 1) mod 256 = x + 1)%Z as -> by (apply Z.mod_small; lia).
      replace (0 <? x + 1)%Z with true by lia.
      split; [apply bytes_snoc; split; [exact Hb|lia]|]. split; [rewrite app_length; simpl; lia|].
      rewrite number_snoc, Z.mod_small by lia. lia.
Qed.
Lemma dec_number : forall l, bytes l ->
  bytes (rev (dec_loop (rev l))) /\ length (rev (dec_loop (rev l))) = length l /\
  number (rev (dec_loop (rev l))) = ((number l - 1) mod 256 ^ Z.of_nat (length l))%Z.
Proof.
  induction l as [|x l IH] using rev_ind; intros Hb.
  - cbn. split; [intros b []|]. split; reflexivity.
  - apply bytes_snoc in Hb as [Hb Hx]. destruct (IH Hb) as [IH1 [IH2 IH3]]. rewrite dec_snoc.
    pose proof (number_bound l Hb) as HB. set (P := (256 ^ Z.of_nat (length l))%Z) in *.
    assert (Hlen : length (l ++ [x]) = S (length l)) by (rewrite app_length; simpl; lia).
    rewrite Hlen, number_snoc, pow256. fold P.
    destruct (Z.eq_dec x 0) as [->|Hne].
    + change ((0 - 1) mod 256)%Z with 255%Z. cbn [Z.ltb Z.compare Pos.compare Pos.compare_cont].
      split; [apply bytes_snoc; split; [exact IH1|lia]|]. split; [rewrite app_length, IH2; simpl; lia|].
      rewrite number_snoc, IH3.
      destruct (Z.eq_dec (number l) 0) as [E|E].
      * rewrite E. replace ((0 - 1) mod P)%Z with (P - 1)%Z by (apply Z.mod_unique with (-1)%Z; lia).
        apply Z.mod_unique with (-1)%Z; lia.
      * rewrite !Z.mod_small by lia. lia.
    + assert ((x - 1) mod 256 = x - 1)%Z as -> by (apply Z.mod_small; lia).
      replace (x - 1 <? 255)%Z with true by lia.
      split; [apply bytes_snoc; split; [exact Hb|lia]|]. split; [rewrite app_length; simpl; lia|].
      rewrite number_snoc, Z.mod_small by lia. lia.
Qed.

Lemma lor_low : forall a b h, (0 <= h)%Z -> (a mod 2 ^ h = 0)%Z -> (0 <= b < 2 ^ h)%Z -> Z.lor a b = (a + b)%Z.
Proof.
  intros a b h Hh Ha Hb.
  assert (E : Z.land a b = 0%Z).
  { rewrite <- (Z.mod_small b (2 ^ h)) by exact Hb. rewrite <- Z.land_ones by exact Hh.
    rewrite (Z.land_comm b), Z.land_assoc, Z.land_ones, Ha by exact Hh. apply Z.land_0_l. }
  rewrite Z.add_nocarry_lxor by exact E. symmetry. apply Z.lxor_lor. exact E.
Qed.

(* ------------------------------------------------------------- masks *)

Lemma mask_zeros : forall l, forallb (fun b => b =? 0)%Z (cidr_mask l 0) = true.
Proof. induction l as [|l IH]; [reflexivity|]. cbn [cidr_mask]. cbn. exact IH. Qed.
Lemma lead_byte : forall k n, k < 8 -> lead 8 (255 - 255 / 2 ^ Z.of_nat k)%Z n = ((n + Z.of_nat k)%Z, 0%Z) /\ (255 - 255 / 2 ^ Z.of_nat k =? 255)%Z = false.
Proof.
  intros k n H. do 8 (destruct k as [|k]; [split; [cbn; f_equal; lia|reflexivity]|]). lia.
Qed.
Lemma mask_length_cidr : forall l k n, k <= 8 * l -> mask_length (cidr_mask l k) n = Some (n + Z.of_nat k)%Z.
Proof.
  induction l as [|l IH]; intros k n H.
  - cbn. f_equal. lia.
  - cbn [cidr_mask]. destruct (8 <=? k) eqn:E.
    + cbn [mask_length]. rewrite Z.eqb_refl, IH by lia. f_equal. lia.
    + destruct (lead_byte k n) as [H1 H2]; [lia|]. cbn [mask_length]. rewrite H2, H1. cbv iota beta.
      rewrite mask_zeros. reflexivity.
Qed.
Lemma mask_size_cidr : forall l k, k <= 8 * l -> mask_size (cidr_mask l k) = (Z.of_nat k, (8 * Z.of_nat l)%Z).
Proof. intros l k H. unfold mask_size. rewrite mask_length_cidr by exact H. rewrite length_mask. f_equal. Qed.

Lemma cidr_mask_z_in : forall l k, (0 <= k <= 8 * Z.of_nat l)%Z -> cidr_mask_z k l = cidr_mask l (Z.to_nat k).
Proof. intros l k H. unfold cidr_mask_z. replace ((k <? 0) || (8 * Z.of_nat l <? k))%Z with false by lia. reflexivity. Qed.

Lemma mask_address : forall w l, (0 <= l <= 8 * Z.of_nat w)%Z ->
  is_address (cidr_mask w (Z.to_nat l)) w (2 ^ (8 * Z.of_nat w) - size w l).
Proof.
  intros w l H. split; [apply bytes_mask|]. split; [apply length_mask|].
  rewrite number_mask by lia. rewrite Z2Nat.id by lia. reflexivity.
Qed.
Lemma address_unique : forall a b w c, is_address a w c -> is_address b w c -> a = b.
Proof. intros a b w c [H1 [H2 H3]] [H4 [H5 H6]]. apply number_inj; first [assumption|congruence]. Qed.
(* The mask of a block is the library's mask. *)
Lemma block_mask : forall n w c l, is_block n w c l -> net_mask n = cidr_mask w (Z.to_nat l).
Proof. intros n w c l [[Hl _] [_ Hm]]. eapply address_unique; [exact Hm|apply mask_address; exact Hl]. Qed.

Lemma size_pos : forall w l, (l <= 8 * Z.of_nat w)%Z -> (0 < size w l)%Z.
Proof. intros w l H. apply Z.pow_pos_nonneg; lia. Qed.
Lemma size_split : forall w l l', (0 <= l <= l')%Z -> (l' <= 8 * Z.of_nat w)%Z -> (size w l = 2 ^ (l' - l) * size w l')%Z.
Proof. intros w l l' H H'. unfold size. rewrite <- Z.pow_add_r by lia. f_equal. lia. Qed.
Lemma size_whole : forall w l, (0 <= l <= 8 * Z.of_nat w)%Z -> (2 ^ (8 * Z.of_nat w) = 2 ^ l * size w l)%Z.
Proof. intros w l H. unfold size. rewrite <- Z.pow_add_r by lia. f_equal. lia. Qed.

Lemma masked : forall a w c l, is_address a w c -> (0 <= l <= 8 * Z.of_nat w)%Z ->
  is_address (and_bytes a (cidr_mask w (Z.to_nat l))) w (c - c mod size w l).
Proof.
  intros a w c l [H1 [H2 H3]] Hl. split; [apply bytes_and; [exact H1|apply bytes_mask]|].
  split; [apply length_and_mask; exact H2|]. rewrite mask_net by (assumption || lia). rewrite Z2Nat.id, H3 by lia. reflexivity.
Qed.

(* IP.Mask between equal lengths. *)
Lemma ip_mask_same : forall a w l, w = 4 \/ w = 16 -> length a = w -> ip_mask a (cidr_mask w l) = Some (and_bytes a (cidr_mask w l)).
Proof.
  intros a w l [->| ->] H; [|apply ip_mask_v6; exact H].
  unfold ip_mask. rewrite length_mask, H. change (4 =? 16) with false. cbn [andb]. rewrite length_mask.
  change (4 =? 16) with false. rewrite andb_false_r. cbn [andb]. rewrite H. reflexivity.
Qed.

(* The prefix as parsed. *)
Lemma parse_prefix : forall s w base l, prefix_text s w base l ->
  exists ip net, parse_cidr s = Ok (ip, net) /\ is_block net w base l /\ (w = 4 \/ w = 16).
Proof.
  intros s w base l [addr [p [a [-> [Ha [Hp [Hl ->]]]]]]].
  assert (Hq : exists ip, w = 4 /\ quad addr a /\ ip = v4_prefix ++ a \/ w = 16 /\ v6_text addr a /\ ip = a)
    by (destruct Ha as [[-> Ha]|[-> Ha]]; eauto 7).
  destruct Hq as [ip Hq]. do 2 eexists. split; [eapply parse_cidr_complete; eassumption|].
  pose proof (decimal_pos _ _ Hp) as Hpos.
  assert (Hba : bytes a /\ length a = w) by
    (destruct Ha as [[-> Ha]|[-> Ha]]; [eapply quad_bytes|eapply v6_bytes]; eassumption).
  split; [|destruct Ha as [[-> _]|[-> _]]; auto].
  pose proof (size_pos w l Hl) as HS.
  split; [split; [lia|]|]. 2: split.
  - rewrite (Z.div_mod (number a) (size w l)) at 1 by lia.
    replace (size w l * (number a / size w l) + number a mod size w l - number a mod size w l)%Z with ((number a / size w l) * size w l)%Z by ring.
    apply Z.mod_mul. lia.
  - eexists. split; [reflexivity|]. apply masked; [|lia]. split; [apply Hba|]. split; [apply Hba|reflexivity].
  - apply mask_address. lia.
Qed.
Lemma parse_prefix_inv : forall s ip net, parse_cidr s = Ok (ip, net) -> exists w base l, prefix_text s w base l.
Proof.
  intros s ip net H. destruct (parse_cidr_cases s) as [[e E]|[addr [p [n [ip' [w [q [Es [Hp [Hn [Hq E]]]]]]]]]]]; [congruence|].
  exists w, (number q - number q mod size w n)%Z, n, addr, p, q. split; [exact Es|].
  split; [destruct Hq as [[-> [Hq _]]|[-> [Hq _]]]; auto|]. auto.
Qed.

(* Which addresses net.IP.To4 takes for IPv4. *)
Lemma to4_number : forall ip c, is_address ip 16 c -> (v4_mapped 16 c -> to4 ip = Some (skipn 12 ip)) /\ (~ v4_mapped 16 c -> to4 ip = None).
Proof.
  intros ip c [Hb [Hl Hc]].
  assert (E : ip = firstn 12 ip ++ skipn 12 ip) by (symmetry; apply firstn_skipn).
  assert (L1 : length (firstn 12 ip) = 12) by (rewrite firstn_length; lia).
  assert (L2 : length (skipn 12 ip) = 4) by (rewrite skipn_length; lia).
  assert (B1 : bytes (firstn 12 ip)) by (intros b Hin; apply Hb; rewrite E; apply in_or_app; auto).
  assert (B2 : bytes (skipn 12 ip)) by (intros b Hin; apply Hb; rewrite E; apply in_or_app; auto).
  pose proof (number_bound _ B2) as HB. rewrite L2 in HB. change (256 ^ Z.of_nat 4)%Z with (2 ^ 32)%Z in HB.
  rewrite E, number_app, L2 in Hc. change (256 ^ Z.of_nat 4)%Z with (2 ^ 32)%Z in Hc.
  assert (Hiff : firstn 12 ip = v4_prefix <-> number (firstn 12 ip) = 65535%Z).
  { split; [intros ->; reflexivity|]. intros N. apply number_inj; [exact L1|exact B1| |rewrite N; reflexivity].
    intros b Hin. unfold v4_prefix in Hin. repeat (destruct Hin as [<-|Hin]; [lia|]). destruct Hin. }
  split; intros Hm.
  - apply to4_prefix; [exact Hl|]. apply Hiff. destruct Hm as [_ Hm]. lia.
  - apply to4_other; [exact Hl|]. intros Hp. apply Hiff in Hp. apply Hm. split; [reflexivity|]. lia.
Qed.
