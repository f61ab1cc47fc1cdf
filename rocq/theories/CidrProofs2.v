(* The library functions, in terms of numbers. *)
From Verif Require Import Base IpModel IpSpec IpProofs IpProofs6 IpProofs7 IpProofs8 CidrModel CidrSpec CidrProofs.
From Coq Require Import ZifyBool ZifyNat ZifyN.
Ltac Zify.zify_post_hook ::= Z.div_mod_to_equations.

Lemma ip_to_int_address : forall ip w c, w = 4 \/ w = 16 -> is_address ip w c -> ip_to_int ip = Ok (c, (8 * Z.of_nat w)%Z).
Proof. intros ip w c Hw [_ [Hl Hc]]. unfold ip_to_int. fold (number ip). rewrite Hc, Hl. destruct Hw as [->| ->]; reflexivity. Qed.

Lemma int_to_ip_ok : forall z w, (0 <= z < 2 ^ (8 * Z.of_nat w))%Z ->
  exists ip, int_to_ip z (8 * Z.of_nat w) = Ok ip /\ is_address ip w z.
Proof.
  intros z w H. unfold int_to_ip. replace (Z.to_nat (8 * Z.of_nat w / 8)) with w by (rewrite Z.mul_comm, Z.div_mul by lia; lia).
  rewrite <- pow256_2 in H. rewrite Z.abs_eq by lia. replace (z <? 256 ^ Z.of_nat w)%Z with true by lia.
  eexists. split; [reflexivity|]. split; [apply to_bytes_bytes|]. split; [apply to_bytes_length|apply to_bytes_number; exact H].
Qed.
Lemma int_to_ip_large : forall z w, (2 ^ (8 * Z.of_nat w) <= z)%Z -> exists m, int_to_ip z (8 * Z.of_nat w) = Panic m.
Proof.
  intros z w H. unfold int_to_ip. replace (Z.to_nat (8 * Z.of_nat w / 8)) with w by (rewrite Z.mul_comm, Z.div_mul by lia; lia).
  rewrite <- pow256_2 in H. assert (0 < 256 ^ Z.of_nat w)%Z by (apply Z.pow_pos_nonneg; lia).
  rewrite Z.abs_eq by lia. replace (z <? 256 ^ Z.of_nat w)%Z with false by lia. eexists; reflexivity.
Qed.

Lemma block_ip : forall n w c l, is_block n w c l -> is_address (ip_bytes (net_ip n)) w c.
Proof. intros n w c l [_ [[ip [E H]] _]]. rewrite E. exact H. Qed.
Lemma block_size : forall n w c l, is_block n w c l -> mask_size (net_mask n) = (l, (8 * Z.of_nat w)%Z).
Proof.
  intros n w c l H. rewrite (block_mask _ _ _ _ H). destruct H as [[Hl _] _].
  rewrite mask_size_cidr by lia. rewrite Z2Nat.id by lia. reflexivity.
Qed.
Lemma block_bound : forall n w c l, is_block n w c l -> (0 <= c /\ c + size w l <= 2 ^ (8 * Z.of_nat w))%Z.
Proof.
  intros n w c l H. destruct (block_ip _ _ _ _ H) as [Hb [Hl Hc]]. pose proof (number_bound _ Hb) as B. rewrite Hl, Hc, pow256_2 in B.
  destruct H as [[HL Ha] _]. pose proof (size_whole w l HL) as E. pose proof (size_pos w l (proj2 HL)) as HS.
  split; [lia|]. rewrite E in B |- *. set (S := size w l) in *. set (Q := (2 ^ l)%Z) in *.
  pose proof (Z.div_mod c S ltac:(lia)) as D. rewrite Ha in D. generalize dependent (c / S)%Z. intros q D. clear Ha.
  assert (q < Q)%Z by nia. nia.
Qed.

Lemma insert_at : forall ip w c l i k, w = 4 \/ w = 16 -> is_address ip w c -> (0 <= l <= k)%Z -> (k <= 8 * Z.of_nat w)%Z ->
  (c mod size w l = 0)%Z -> (0 <= i)%Z ->
  ((i < 2 ^ (k - l))%Z -> exists ip', insert_num ip i k = Ok ip' /\ is_address ip' w (c + i * size w k)) /\
  ((2 ^ (8 * Z.of_nat w) <= i * size w k)%Z -> exists m, insert_num ip i k = Panic m).
Proof.
  intros ip w c l i k Hw Ha Hl Hk Hc Hi. unfold insert_num. rewrite (ip_to_int_address _ _ _ Hw Ha). cbn [bindr].
  rewrite Z.shiftl_mul_pow2 by lia. change (2 ^ (8 * Z.of_nat w - k))%Z with (size w k).
  destruct Ha as [Hb [Hlen Hn]]. pose proof (number_bound _ Hb) as B. rewrite Hlen, Hn, pow256_2 in B.
  pose proof (size_pos w k Hk) as HS. pose proof (size_split w l k Hl Hk) as E.
  split; intros H.
  - assert (Hlt : (0 <= i * size w k < size w l)%Z) by (rewrite E; nia).
    unfold size in Hc, Hlt. rewrite (lor_low c _ (8 * Z.of_nat w - l)) by (try assumption; lia).
    apply int_to_ip_ok. fold (size w l) in Hc, Hlt. pose proof (size_whole w l ltac:(lia)) as E2.
    pose proof (Z.div_mod c (size w l) ltac:(lia)) as D. rewrite Hc in D. rewrite E2 in B |- *.
    change (i * 2 ^ (8 * Z.of_nat w - k))%Z with (i * size w k)%Z in *.
    set (S := size w l) in *. set (Q := (2 ^ l)%Z) in *. set (X := (i * size w k)%Z) in *.
    generalize dependent (c / S)%Z. intros q D. clear Hc. clearbody X S Q. assert (q < Q)%Z by nia. nia.
  - apply int_to_ip_large. etransitivity; [exact H|]. change (i * 2 ^ (8 * Z.of_nat w - k))%Z with (i * size w k)%Z.
    apply Z.ldiff_le; [apply Z.lor_nonneg; nia|].
    apply Z.bits_inj'. intros b Hb0. rewrite Z.ldiff_spec, Z.lor_spec, Z.bits_0. destruct (Z.testbit (i * size w k) b), (Z.testbit c b); reflexivity.
Qed.

Lemma wrap64_small : forall z, (0 <= z < 2 ^ 63)%Z -> wrap64 z = z.
Proof. intros z H. unfold wrap64. rewrite Z.mod_small by lia. lia. Qed.
Lemma wrap64_range : forall z, (- 2 ^ 63 <= wrap64 z < 2 ^ 63)%Z.
Proof. intros z. unfold wrap64. pose proof (Z.mod_pos_bound (z + 2 ^ 63) (2 ^ 64)). lia. Qed.

(* HostBig, unless the prefix is IPv4-mapped or an IPv6 host number has 64 bits. *)
Lemma host_big_spec : forall net w base l n, w = 4 \/ w = 16 -> is_block net w base l -> ~ v4_mapped w base ->
  w = 4 \/ (n < 2 ^ 63)%Z ->
  ((0 <= host_index w l n < size w l)%Z -> exists ip, host_big net n = Ok ip /\ is_address ip w (base + host_index w l n)) /\
  (~ (0 <= host_index w l n < size w l)%Z -> exists m, host_big net n = Err m \/ host_big net n = Panic m).
Proof.
  intros net w base l n Hw Hb Hm Hn. unfold host_big. rewrite (block_size _ _ _ _ Hb).
  pose proof (block_ip _ _ _ _ Hb) as Hip. pose proof Hb as [[Hl Hal] _].
  assert (E4 : (match to4 (ip_bytes (net_ip net)) with Some _ => 32 | None => 128 end)%Z = (8 * Z.of_nat w)%Z).
  { destruct Hw as [->| ->].
    - rewrite to4_4 by apply Hip. reflexivity.
    - rewrite (proj2 (to4_number _ _ Hip) Hm). reflexivity. }
  rewrite E4. change (2 ^ (8 * Z.of_nat w - l))%Z with (size w l).
  pose proof (size_pos w l (proj2 Hl)) as HS.
  assert (Hone : size w (8 * Z.of_nat w) = 1%Z) by (unfold size; rewrite Z.sub_diag; reflexivity).
  assert (Hins : forall i, (0 <= i)%Z ->
    ((i < size w l)%Z -> exists ip', insert_num (ip_bytes (net_ip net)) i (8 * Z.of_nat w) = Ok ip' /\ is_address ip' w (base + i)) /\
    ((2 ^ (8 * Z.of_nat w) <= i)%Z -> exists m, insert_num (ip_bytes (net_ip net)) i (8 * Z.of_nat w) = Panic m)).
  { intros i Hi. destruct (insert_at _ w base l i (8 * Z.of_nat w) Hw Hip ltac:(lia) ltac:(lia) Hal Hi) as [H1 H2].
    rewrite Hone, !Z.mul_1_r in H1, H2. split; assumption. }
  unfold host_index. destruct (n <? 0)%Z eqn:En.
  - destruct (size w l - 1 <? - n - 1)%Z eqn:Ec.
    + split; intros H; [lia|eauto].
    + split; intros H; [|lia]. destruct (Hins (size w l - 1 - (- n - 1))%Z ltac:(lia)) as [H1 _].
      replace (base + (size w l + n))%Z with (base + (size w l - 1 - (- n - 1)))%Z by lia. apply H1. lia.
  - rewrite Z.abs_eq by lia. destruct (Z_lt_ge_dec n (2 ^ 63)) as [Hlt|Hge].
    + rewrite (Z.mod_small n) by lia. rewrite wrap64_small by lia. destruct (size w l - 1 <? n)%Z eqn:Ec.
      * split; intros H; [lia|eauto].
      * split; intros H; [|lia]. apply Hins; lia.
    + destruct Hn as [->|Hn]; [|lia]. split; intros H.
      * exfalso. pose proof (size_whole 4 l Hl) as E. assert (0 < 2 ^ l)%Z by (apply Z.pow_pos_nonneg; lia).
        change (2 ^ (8 * Z.of_nat 4))%Z with (2 ^ 32)%Z in E. nia.
      * destruct (size 4 l - 1 <? wrap64 (n mod 2 ^ 64))%Z; [eauto|].
        destruct (Hins n ltac:(lia)) as [_ H2]. destruct H2 as [m H2]; [change (2 ^ (8 * Z.of_nat 4))%Z with (2 ^ 32)%Z; lia|]. eauto.
Qed.

(* SubnetBig, for newbits and numbers that are not negative and fit. *)
Lemma subnet_big_spec : forall net w base l b n, w = 4 \/ w = 16 -> is_block net w base l ->
  (0 <= b < 2 ^ 62)%Z -> (0 <= n)%Z -> w = 4 \/ (n < 2 ^ 64)%Z ->
  ((l + b <= 8 * Z.of_nat w /\ n < 2 ^ b)%Z ->
     exists net', subnet_big net b n = Ok net' /\ is_block net' w (base + n * size w (l + b)) (l + b)) /\
  (~ (l + b <= 8 * Z.of_nat w /\ n < 2 ^ b)%Z -> exists m, subnet_big net b n = Err m \/ subnet_big net b n = Panic m).
Proof.
  intros net w base l b n Hw Hb Hbits Hn Hfit. unfold subnet_big. rewrite (block_size _ _ _ _ Hb).
  pose proof (block_ip _ _ _ _ Hb) as Hip. pose proof Hb as [[Hl Hal] _].
  assert (Hw8 : (8 * Z.of_nat w <= 128)%Z) by (destruct Hw; subst; lia).
  rewrite wrap64_small by lia. rewrite Z.abs_eq by exact Hn.
  destruct (8 * Z.of_nat w <? l + b)%Z eqn:El.
  - split; intros H; [lia|eauto].
  - replace ((0 <=? b) && (b <? 64))%Z with (b <? 64)%Z by lia.
    destruct (insert_at _ w base l n (l + b) Hw Hip ltac:(lia) ltac:(lia) Hal Hn) as [H1 H2].
    replace (l + b - l)%Z with b in H1 by lia.
    assert (Hgood : (n < 2 ^ b)%Z -> exists net', (do ip' <- insert_num (ip_bytes (net_ip net)) n (l + b);
         Ok (mkNet (Some ip') (cidr_mask_z (l + b) (Z.to_nat (8 * Z.of_nat w / 8))))) = Ok net' /\
         is_block net' w (base + n * size w (l + b)) (l + b)).
    { intros H. destruct (H1 H) as [ip' [-> Ha']]. cbn [bindr].
      replace (Z.to_nat (8 * Z.of_nat w / 8)) with w by (rewrite Z.mul_comm, Z.div_mul by lia; lia).
      rewrite cidr_mask_z_in by lia. eexists. split; [reflexivity|]. split; [|split].
      - split; [lia|]. rewrite (size_split w l (l + b)) in Hal by lia.
        pose proof (size_pos w (l + b) ltac:(lia)) as HS. replace (l + b - l)%Z with b in Hal by lia.
        rewrite Z.mod_add by lia. apply Z.mod_divide; [lia|]. apply Z.mod_divide in Hal; [|apply Z.neq_mul_0; split; [apply Z.pow_nonzero|]; lia].
        etransitivity; [|exact Hal]. apply Z.divide_factor_r.
      - eexists. split; [reflexivity|exact Ha'].
      - apply mask_address. lia. }
    destruct (Z_lt_ge_dec n (2 ^ b)) as [Hlt|Hge].
    + split; intros H; [|lia].
      replace ((if (b <? 64)%Z then 2 ^ b - 1 else 2 ^ 64 - 1) <? n mod 2 ^ 64)%Z with false; [apply Hgood; exact Hlt|].
      symmetry. apply Z.ltb_ge. destruct (b <? 64)%Z eqn:E64.
      * assert (2 ^ b <= 2 ^ 64)%Z by (apply Z.pow_le_mono_r; lia). rewrite Z.mod_small; lia.
      * pose proof (Z.mod_pos_bound n (2 ^ 64)). lia.
    + split; intros H; [lia|]. destruct Hfit as [->|Hfit].
      * destruct (Z_lt_ge_dec n (2 ^ 64)) as [Hs|Hs].
        -- assert (b < 64)%Z by lia. replace (b <? 64)%Z with true by lia. rewrite Z.mod_small by lia.
           replace (2 ^ b - 1 <? n)%Z with true by lia. eauto.
        -- match goal with |- context [if ?c then _ else _] => destruct c end; [eauto|]. destruct H2 as [m H2].
           { pose proof (size_pos 4 (l + b) ltac:(lia)). change (2 ^ (8 * Z.of_nat 4))%Z with (2 ^ 32)%Z. nia. }
           rewrite H2. cbn [bindr]. eauto.
      * assert (b < 64)%Z. { destruct (Z_lt_ge_dec b 64); [assumption|]. assert (2 ^ 64 <= 2 ^ b)%Z by (apply Z.pow_le_mono_r; lia). lia. }
        replace (b <? 64)%Z with true by lia. rewrite Z.mod_small by lia.
        replace (2 ^ b - 1 <? n)%Z with true by lia. eauto.
Qed.

(* AddressRange: the last address of a block. *)
Lemma last_address_block : forall net w c l, w = 4 \/ w = 16 -> is_block net w c l ->
  exists ip, last_address net = Ok ip /\ is_address ip w (c + size w l - 1).
Proof.
  intros net w c l Hw Hb. unfold last_address. rewrite (block_size _ _ _ _ Hb).
  pose proof (block_ip _ _ _ _ Hb) as Hip. pose proof (block_bound _ _ _ _ Hb) as HB. pose proof Hb as [[Hl Hal] _].
  pose proof (size_pos w l (proj2 Hl)) as HS.
  destruct (l =? 8 * Z.of_nat w)%Z eqn:El.
  - exists (ip_bytes (net_ip net)). split; [reflexivity|]. assert (l = 8 * Z.of_nat w)%Z as -> by lia.
    replace (c + size w (8 * Z.of_nat w) - 1)%Z with c; [exact Hip|]. unfold size. rewrite Z.sub_diag. change (2 ^ 0)%Z with 1%Z. lia.
  - rewrite (ip_to_int_address _ _ _ Hw Hip). cbn [bindr]. change (2 ^ (8 * Z.of_nat w - l))%Z with (size w l).
    rewrite Z.lor_comm. unfold size in Hal, HS. rewrite (lor_low c _ (8 * Z.of_nat w - l)) by (try assumption; unfold size; lia).
    replace (c + (size w l - 1))%Z with (c + size w l - 1)%Z by lia. apply int_to_ip_ok. fold (size w l) in HS. lia.
Qed.
