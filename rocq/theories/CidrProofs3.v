(* cidrsubnets, in terms of numbers. *)
From Verif Require Import Base IpModel IpSpec IpProofs IpProofs6 IpProofs7 IpProofs8 CidrModel CidrSpec CidrProofs CidrProofs2.
From Coq Require Import ZifyBool ZifyNat ZifyN.
Ltac Zify.zify_post_hook ::= Z.div_mod_to_equations.

Lemma mod_down : forall e d, (0 < d)%Z -> ((e - e mod d) mod d = 0 /\ e - e mod d <= e < e - e mod d + d)%Z.
Proof.
  intros e d H. pose proof (Z.mod_pos_bound e d H). split; [|lia].
  rewrite Zminus_mod_idemp_r. rewrite Z.sub_diag. apply Z.mod_0_l. lia.
Qed.
Lemma multiple_range : forall a c d, (0 < d)%Z -> (a mod d = 0)%Z -> (c - c mod d = a <-> a <= c < a + d)%Z.
Proof.
  intros a c d Hd Ha. pose proof (mod_down c d Hd) as [H1 H2]. split; [intros <-; lia|]. intros H3.
  apply Z.mod_divide in Ha; [|lia]. apply Z.mod_divide in H1; [|lia]. destruct Ha as [x ->]. destruct H1 as [y Hy].
  rewrite Hy in *. assert (x = y) by nia. subst. reflexivity.
Qed.
(* Two multiples of d at a distance below d are equal. *)
Lemma least_multiple_next : forall e d, (0 < d)%Z -> least_multiple (e + 1) d (e - e mod d + d).
Proof.
  intros e d H. pose proof (mod_down e d H) as [H1 H2]. split; [lia|]. split.
  - replace (e - e mod d + d)%Z with (e - e mod d + 1 * d)%Z by lia. rewrite Z.mod_add by lia. exact H1.
  - intros t Ht1 Ht2. apply Z.mod_divide in Ht2; [|lia]. apply Z.mod_divide in H1; [|lia].
    destruct Ht2 as [x ->]. destruct H1 as [y Hy]. rewrite Hy in *. clear Hy. assert (y < x)%Z by nia. nia.
Qed.

Lemma mapped_length : forall base l, (0 <= l <= 128)%Z -> (base mod size 16 l = 0)%Z -> v4_mapped 16 base -> (96 <= l)%Z.
Proof.
  intros base l Hl Ha [_ Hm]. destruct (Z_lt_ge_dec l 96) as [H|H]; [|lia]. exfalso.
  assert (E : (size 16 l = 2 ^ (95 - l) * 2 ^ 33)%Z) by (unfold size; rewrite <- Z.pow_add_r by lia; f_equal; lia).
  rewrite E in Ha. apply Z.mod_divide in Ha; [|apply Z.neq_mul_0; split; apply Z.pow_nonzero; lia].
  assert (D : (2 ^ 33 | base)%Z) by (etransitivity; [apply Z.divide_factor_r|exact Ha]).
  destruct D as [k ->]. lia.
Qed.

(* IPNet.Contains of a network that is not IPv4-mapped. *)
Lemma contains_length : forall net w base l ip, w = 4 \/ w = 16 -> is_block net w base l -> ~ v4_mapped w base ->
  contains net ip = true -> length (check_ipv4 ip) = w.
Proof.
  intros net w base l ip Hw Hb Hm. unfold contains, network_number_and_mask, check_ipv4.
  destruct (block_ip _ _ _ _ Hb) as [Hbb [Hbl Hbc]]. pose proof (block_mask _ _ _ _ Hb) as Em. rewrite Em, length_mask.
  change (match net_ip net with Some l0 => l0 | None => [] end) with (ip_bytes (net_ip net)).
  destruct Hw as [->| ->].
  - rewrite to4_4 by exact Hbl. change (4 =? 4) with true. cbv iota. rewrite Hbl. change (4 =? 4) with true. cbv iota beta.
    rewrite Hbl. intros H. apply andb_prop in H as [H _]. apply Nat.eqb_eq in H. exact H.
  - rewrite (proj2 (to4_number _ _ (conj Hbb (conj Hbl Hbc))) Hm). rewrite Hbl. change (16 =? 16) with true. change (16 =? 4) with false.
    cbv iota. rewrite Hbl. change (16 =? 4) with false. cbv iota beta.
    rewrite Hbl. intros H. apply andb_prop in H as [H _]. apply Nat.eqb_eq in H. exact H.
Qed.
Lemma contains_block : forall net w base l ip c, w = 4 \/ w = 16 -> is_block net w base l -> ~ v4_mapped w base ->
  is_address ip w c -> ~ v4_mapped w c ->
  (contains net ip = true <-> (base <= c < base + size w l)%Z).
Proof.
  intros net w base l ip c Hw Hb Hm Hip Hc. unfold contains, network_number_and_mask.
  pose proof (block_ip _ _ _ _ Hb) as Hba. pose proof (block_mask _ _ _ _ Hb) as Em. rewrite Em, length_mask.
  change (match net_ip net with Some l0 => l0 | None => [] end) with (ip_bytes (net_ip net)).
  pose proof Hb as [[Hl Hal] _].
  assert (K : forall x, x = (if list_eqb (and_bytes (ip_bytes (net_ip net)) (cidr_mask w (Z.to_nat l))) (and_bytes ip (cidr_mask w (Z.to_nat l))) then true else false) ->
    (x = true <-> (base <= c < base + size w l)%Z)).
  { intros x ->. rewrite <- (multiple_range base c (size w l)) by (try apply size_pos; lia).
    pose proof (masked _ _ _ _ Hba Hl) as M1. pose proof (masked _ _ _ _ Hip Hl) as M2.
    assert (E0 : (base - base mod size w l)%Z = base) by lia. rewrite E0 in M1.
    destruct (list_eqb _ _) eqn:El.
    - split; [intros _|reflexivity]. apply list_eqb_eq in El. rewrite El in M1. destruct M1 as [_ [_ M1]]. destruct M2 as [_ [_ M2]]. congruence.
    - split; [discriminate|]. intros E1. exfalso. rewrite E1 in M2. rewrite (address_unique _ _ _ _ M1 M2), list_eqb_refl in El. discriminate. }
  destruct Hw as [->| ->].
  - rewrite to4_4 by apply Hba. rewrite to4_4 by apply Hip. change (4 =? 4) with true. cbv iota.
    rewrite (proj1 (proj2 Hba)). change (4 =? 4) with true. cbv iota beta.
    apply K. rewrite (proj1 (proj2 Hba)), (proj1 (proj2 Hip)). change (4 =? 4) with true. cbn [andb].
    destruct (list_eqb _ _); reflexivity.
  - rewrite (proj2 (to4_number _ _ Hba) Hm), (proj2 (to4_number _ _ Hip) Hc).
    rewrite (proj1 (proj2 Hba)). change (16 =? 4) with false. change (16 =? 16) with true. cbv iota.
    rewrite (proj1 (proj2 Hba)). change (16 =? 4) with false. cbv iota beta.
    apply K. rewrite (proj1 (proj2 Hba)), (proj1 (proj2 Hip)). change (16 =? 16) with true. cbn [andb].
    destruct (list_eqb _ _); reflexivity.
Qed.

Lemma zero_ip : forall ip w c, w = 4 \/ w = 16 -> is_address ip w c ->
  is_zero_ip ip = true <-> c = 0%Z \/ w = 16 /\ c = (65535 * 2 ^ 32)%Z.
Proof.
  intros ip w c Hw Hip.
  assert (Z4 : is_address (zeros 4) 4 0) by (split; [apply bytes_zeros|split; reflexivity]).
  assert (Z16 : is_address (zeros 16) 16 0) by (split; [apply bytes_zeros|split; reflexivity]).
  assert (ZM : is_address (v4_prefix ++ zeros 4) 16 (65535 * 2 ^ 32)).
  { split; [|split; reflexivity]. intros b Hin. cbn in Hin. repeat (destruct Hin as [<-|Hin]; [lia|]). destruct Hin. }
  unfold is_zero_ip, ip_equal. destruct Hw as [->| ->]; rewrite (proj1 (proj2 Hip)).
  - change (length (v4_prefix ++ zeros 4)) with 16. change (length (zeros 16)) with 16.
    change (4 =? 16) with false. change (4 =? 4) with true. change (16 =? 16) with true. cbn [andb].
    change (firstn 12 (v4_prefix ++ zeros 4)) with v4_prefix. change (skipn 12 (v4_prefix ++ zeros 4)) with (zeros 4).
    change (list_eqb (firstn 12 (zeros 16)) v4_prefix) with false. cbn [andb]. rewrite list_eqb_refl, orb_false_r. cbn [andb].
    rewrite list_eqb_eq. split.
    + intros ->. left. destruct Hip as [_ [_ <-]]. reflexivity.
    + intros [->|[H _]]; [|discriminate]. exact (address_unique _ _ _ _ Hip Z4).
  - change (length (v4_prefix ++ zeros 4)) with 16. change (length (zeros 16)) with 16. change (16 =? 16) with true. cbv iota.
    rewrite orb_true_iff, !list_eqb_eq. split.
    + intros [->| ->]; destruct Hip as [_ [_ <-]]; [right; split; reflexivity|left; reflexivity].
    + intros [->|[_ ->]]; [right; exact (address_unique _ _ _ _ Hip Z16)|left; exact (address_unique _ _ _ _ Hip ZM)].
Qed.

(* Where the next network of length l' after a network ending before e starts. *)
Definition next_start (w : nat) (e l' : Z) : Z := ((e - 1) - (e - 1) mod size w l' + size w l')%Z.

Lemma next_subnet_spec : forall cur w c l l', w = 4 \/ w = 16 -> is_block cur w c l -> (0 <= l' <= 8 * Z.of_nat w)%Z ->
  let s := next_start w (c + size w l) l' in
  exists next ro, next_subnet cur l' = Ok (next, ro) /\
    (v4_mapped w (s - 1) -> length (ip_bytes (net_ip next)) <= 4) /\
    (~ v4_mapped w (s - 1) ->
       (ro = true <-> s = (2 ^ (8 * Z.of_nat w))%Z \/ w = 16 /\ s = (65535 * 2 ^ 32)%Z) /\
       ((s < 2 ^ (8 * Z.of_nat w))%Z -> is_block next w s l')).
Proof.
  intros cur w c l l' Hw Hb Hl' s. unfold next_subnet.
  destruct (last_address_block _ _ _ _ Hw Hb) as [cl [-> Hcl]]. cbn [bindr].
  rewrite (proj1 (proj2 Hcl)). rewrite cidr_mask_z_in by exact Hl'. rewrite (ip_mask_same cl) by (try exact Hw; apply Hcl).
  pose proof (masked _ _ _ _ Hcl Hl') as Hf. pose proof (size_pos w l' (proj2 Hl')) as HS.
  set (e := (c + size w l - 1)%Z) in *. pose proof (mod_down e (size w l') HS) as [Hd1 Hd2].
  assert (Hfb : is_block (mkNet (Some (and_bytes cl (cidr_mask w (Z.to_nat l')))) (cidr_mask w (Z.to_nat l'))) w (e - e mod size w l') l').
  { split; [split; [exact Hl'|exact Hd1]|]. split; [eexists; split; [reflexivity|exact Hf]|]. apply mask_address; exact Hl'. }
  destruct (last_address_block _ _ _ _ Hw Hfb) as [la [-> Hla]]. cbn [bindr].
  replace (e - e mod size w l' + size w l' - 1)%Z with (s - 1)%Z in Hla by (unfold s, next_start, e; lia).
  assert (Hs0 : (s mod size w l' = 0)%Z).
  { replace s with (e - e mod size w l' + 1 * size w l')%Z by (unfold s, next_start, e; lia). rewrite Z.mod_add by lia. exact Hd1. }
  do 2 eexists. split; [reflexivity|]. split.
  - intros Hm. pose proof Hm as [-> _]. unfold inc_ip, check_ipv4. rewrite (proj1 (to4_number _ _ Hla) Hm).
    set (x := rev (inc_loop (rev (skipn 12 la)))).
    assert (Hx : length x = 4).
    { assert (Hbx : bytes (skipn 12 la)). { intros b Hin. apply (proj1 Hla). rewrite <- (firstn_skipn 12 la). apply in_or_app. auto. }
      unfold x. rewrite (proj1 (proj2 (inc_number _ Hbx))). rewrite skipn_length, (proj1 (proj2 Hla)). reflexivity. }
    cbn [net_ip ip_bytes]. unfold ip_mask. rewrite Hx. change (4 =? 16) with false. rewrite andb_false_r. cbn [andb].
    match goal with |- context [if length x =? ?z then _ else _] => destruct (length x =? z) end; cbn [ip_bytes]; [|simpl; lia].
    unfold and_bytes. rewrite map_length, combine_length. lia.
  - intros Hm.
    assert (Einc : inc_ip la = rev (inc_loop (rev la))).
    { unfold inc_ip, check_ipv4. destruct Hw as [->| ->]; [rewrite to4_4 by apply Hla; reflexivity|].
      rewrite (proj2 (to4_number _ _ Hla) Hm). reflexivity. }
    rewrite Einc. destruct (inc_number la (proj1 Hla)) as [I1 [I2 I3]]. rewrite (proj1 (proj2 Hla)), (proj2 (proj2 Hla)), pow256_2 in I3.
    rewrite (proj1 (proj2 Hla)) in I2. replace (s - 1 + 1)%Z with s in I3 by lia.
    pose proof (block_bound _ _ _ _ Hfb) as HB. pose proof (block_bound _ _ _ _ Hb) as HBc.
    assert (Hs : (size w l' <= s <= 2 ^ (8 * Z.of_nat w))%Z) by (unfold s, next_start; fold e; lia).
    split.
    + rewrite (zero_ip _ w _ Hw (conj I1 (conj I2 I3))).
      destruct (Z.eq_dec s (2 ^ (8 * Z.of_nat w))) as [Es|Es].
      * rewrite Es, Z.mod_same by lia. split; auto.
      * rewrite Z.mod_small by lia. split; intros [H|H]; [lia|auto|lia|auto].
    + intros Hlt. rewrite Z.mod_small in I3 by lia.
      pose proof (conj I1 (conj I2 I3)) as Hia. fold (is_address (rev (inc_loop (rev la))) w s) in Hia.
      rewrite (ip_mask_same _ w) by (try exact Hw; exact I2). pose proof (masked _ _ _ _ Hia Hl') as Hma.
      rewrite Hs0, Z.sub_0_r in Hma.
      split; [split; [exact Hl'|exact Hs0]|]. split; [eexists; split; [reflexivity|exact Hma]|]. apply mask_address; exact Hl'.
Qed.

(* One round of the loop succeeds only with the next free network inside the prefix. *)
Lemma next_sound : forall network base l cur w c lc l' next, w = 4 \/ w = 16 -> is_block network w base l -> ~ v4_mapped w base ->
  is_block cur w c lc -> (l <= l' <= 8 * Z.of_nat w)%Z ->
  next_subnet cur l' = Ok (next, false) -> contains network (ip_bytes (net_ip next)) = true ->
  let s := next_start w (c + size w lc) l' in
  is_block next w s l' /\ (base <= s /\ s + size w l' <= base + size w l)%Z.
Proof.
  intros network base l cur w c lc l' next Hw Hb Hm Hc Hl' Hnx Hin s.
  pose proof Hb as [[Hl Hal] _].
  destruct (next_subnet_spec cur w c lc l' Hw Hc ltac:(lia)) as [next' [ro [E [H1 H2]]]]. fold s in H1, H2.
  rewrite Hnx in E. injection E as <- <-.
  pose proof (contains_length _ _ _ _ _ Hw Hb Hm Hin) as Hlen.
  assert (Hdec : v4_mapped w (s - 1) \/ ~ v4_mapped w (s - 1)).
  { unfold v4_mapped. destruct Hw as [->| ->]; [right; intros [H _]; discriminate|].
    destruct (Z_le_gt_dec (65535 * 2 ^ 32) (s - 1)), (Z_lt_ge_dec (s - 1) (65536 * 2 ^ 32));
      (left; split; [reflexivity|lia]) || (right; intros [_ H]; lia). }
  destruct Hdec as [Hd|Hd].
  { exfalso. pose proof Hd as [-> _]. specialize (H1 Hd).
    assert (length (check_ipv4 (ip_bytes (net_ip next))) <= 4).
    { unfold check_ipv4, to4. destruct (length (ip_bytes (net_ip next)) =? 4) eqn:E4; [exact H1|].
      replace (length (ip_bytes (net_ip next)) =? 16) with false by lia. cbn [andb]. exact H1. }
    lia. }
  specialize (H2 Hd) as [H2 H3].
  pose proof (block_bound _ _ _ _ Hc) as HBc. pose proof (size_pos w l' (proj2 Hl')) as HS. pose proof Hc as [[Hlc Hac] _].
  pose proof (size_pos w lc (proj2 Hlc)) as HSc.
  pose proof (mod_down (c + size w lc - 1) (size w l') HS) as [Hd1 Hd2].
  assert (Hs : (s <= 2 ^ (8 * Z.of_nat w))%Z).
  { pose proof (size_whole w l' ltac:(lia)) as Ew. unfold s, next_start. apply Z.mod_divide in Hd1; [|lia]. destruct Hd1 as [k Hk].
    rewrite Hk in *. clear Hk. rewrite Ew in *. assert (B : (k * size w l' < 2 ^ l' * size w l')%Z) by lia.
    clear - B HS. set (S := size w l') in *. set (Q := (2 ^ l')%Z) in *. clearbody S Q. assert (k < Q)%Z by nia. nia. }
  assert (Hlt : (s < 2 ^ (8 * Z.of_nat w))%Z).
  { destruct (Z.eq_dec s (2 ^ (8 * Z.of_nat w))) as [Es|Es]; [|lia]. assert (false = true) by (apply H2; auto). discriminate. }
  specialize (H3 Hlt). split; [exact H3|].
  assert (Hsm : ~ v4_mapped w s).
  { intros Hx. pose proof Hx as [-> _].
    pose proof (proj1 (to4_number _ _ (block_ip _ _ _ _ H3)) Hx) as E4.
    unfold check_ipv4 in Hlen. rewrite E4 in Hlen. rewrite skipn_length, (proj1 (proj2 (block_ip _ _ _ _ H3))) in Hlen. lia. }
  apply (contains_block _ _ _ _ _ _ Hw Hb Hm (block_ip _ _ _ _ H3) Hsm) in Hin.
  split; [lia|]. destruct H3 as [[_ Has] _]. rewrite (size_split w l l') in * by lia.
  apply Z.mod_divide in Has; [|lia]. apply Z.mod_divide in Hal; [|lia]. destruct Has as [x Hx]. destruct Hal as [y Hy].
  rewrite Hx, Hy in Hin |- *. clear - Hin HS. set (S := size w l') in *. set (Q := (2 ^ (l' - l))%Z) in *. clearbody S Q.
  assert (x < y * Q + Q)%Z by nia. nia.
Qed.
