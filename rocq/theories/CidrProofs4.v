(* The loop of cidrsubnets. *)
From Verif Require Import Base IpModel IpSpec IpProofs IpProofs6 IpProofs7 IpProofs8 CidrModel CidrSpec CidrProofs CidrProofs2 CidrProofs3.
From Coq Require Import ZifyBool ZifyNat ZifyN.
Ltac Zify.zify_post_hook ::= Z.div_mod_to_equations.


Lemma next_start_least : forall w e l', (l' <= 8 * Z.of_nat w)%Z -> least_multiple e (size w l') (next_start w e l').
Proof.
  intros w e l' H. unfold next_start. replace e with (e - 1 + 1)%Z at 1 by lia. apply least_multiple_next. apply size_pos. exact H.
Qed.
Lemma least_multiple_unique : forall e d s t, least_multiple e d s -> least_multiple e d t -> s = t.
Proof.
  intros e d s t [H1 [H2 H3]] [H4 [H5 H6]]. pose proof (H3 t H4 H5). pose proof (H6 s H1 H2). lia.
Qed.

Lemma first_fit_bound : forall w e cs, first_fit w e cs -> Forall (fun x => e <= fst x)%Z cs.
Proof.
  intros w e cs H. induction H as [|e c l r [H1 _] H IH]; [constructor|]. constructor; [exact H1|].
  eapply Forall_impl; [|exact IH]. intros x Hx. simpl in Hx.
  assert (0 <= size w l)%Z by (unfold size; apply Z.pow_nonneg; lia). lia.
Qed.
Lemma first_fit_ordered : forall w e cs, first_fit w e cs -> ForallOrdPairs (before w) cs.
Proof.
  intros w e cs H. induction H as [|e c l r H1 H IH]; [constructor|]. constructor; [|exact IH].
  apply first_fit_bound in H. exact H.
Qed.

Lemma to_int_some : forall a z, to_int a = Ok z -> a = Some z.
Proof. intros [x|] z; simpl; [|discriminate]. destruct (_ || _); [discriminate|]. intros H; congruence. Qed.
Lemma to_int_small : forall b, (1 <= b <= 32)%Z -> to_int (Some b) = Ok b.
Proof. intros b H. cbn [to_int]. unfold min_int, max_int. replace ((b <? - 2 ^ 63) || (2 ^ 63 - 1 <? b))%Z with false by lia. reflexivity. Qed.

Lemma loop_sound : forall network base l w, w = 4 \/ w = 16 -> is_block network w base l -> ~ v4_mapped w base ->
  forall args cur c lc nets, is_block cur w c lc -> subnets_loop network l args cur = Ok nets ->
  exists bs cs, args = map Some bs /\ Forall (fun b => 1 <= b <= 32)%Z bs /\ map snd cs = map (Z.add l) bs /\
    Forall2 (block_at w) nets cs /\ first_fit w (c + size w lc) cs /\ Forall (inside w base l) cs.
Proof.
  intros network base l w Hw Hb Hm. induction args as [|a args IH]; intros cur c lc nets Hc H.
  - cbn in H. injection H as <-. exists [], []. repeat split; constructor.
  - cbn [subnets_loop] in H. apply bindr_Ok in H as [b [Hb0 H]]. apply to_int_some in Hb0. subst a.
    destruct (b <? 1)%Z eqn:E1; [discriminate|]. destruct (32 <? b)%Z eqn:E2; [discriminate|].
    rewrite (proj1 (proj2 (block_ip _ _ _ _ Hb))) in H.
    destruct (Z.of_nat w * 8 <? b + l)%Z eqn:E3; [discriminate|].
    apply bindr_Ok in H as [[next ro] [Hnx H]]. destruct ro; [discriminate|].
    destruct (contains network (ip_bytes (net_ip next))) eqn:Ec; [|discriminate]. cbn [negb orb] in H.
    apply bindr_Ok in H as [rest [Hrest H]]. injection H as <-.
    destruct (next_sound network base l cur w c lc (b + l) next Hw Hb Hm Hc ltac:(lia) Hnx Ec) as [Hn1 Hn2].
    destruct (IH _ _ _ _ Hn1 Hrest) as [bs [cs [-> [F1 [F2 [F3 [F4 F5]]]]]]].
    exists (b :: bs), ((next_start w (c + size w lc) (b + l), (b + l)%Z) :: cs).
    split; [reflexivity|]. split; [constructor; [lia|exact F1]|]. split; [cbn [map snd]; rewrite F2; f_equal; lia|].
    split; [constructor; [exact Hn1|exact F3]|]. split; [constructor; [apply next_start_least; lia|exact F4]|].
    constructor; [exact Hn2|exact F5].
Qed.

Lemma loop_complete : forall network base l w, w = 4 \/ w = 16 -> is_block network w base l -> plain w base l ->
  forall cs bs cur c lc, is_block cur w c lc -> first_fit w (c + size w lc) cs -> Forall (inside w base l) cs ->
  Forall (fun b => 1 <= b <= 32)%Z bs -> map snd cs = map (Z.add l) bs -> Forall (fun b => l + b <= 8 * Z.of_nat w)%Z bs ->
  exists nets, subnets_loop network l (map Some bs) cur = Ok nets.
Proof.
  intros network base l w Hw Hb [Hpos Hpl]. pose proof Hb as [[Hl Hal] _]. pose proof (size_pos w l (proj2 Hl)) as HSl.
  induction cs as [|[s l'] cs IH]; intros bs cur c lc Hc Hff Hin Hbs Hlen Hfit; destruct bs as [|b bs]; try discriminate Hlen.
  - exists []. reflexivity.
  - cbn [map snd] in Hlen. injection Hlen as El Hlen. inversion Hff as [|? ? ? ? Hlm Hff' E1 E2]; subst.
    inversion Hin as [|? ? Hin1 Hin2]; subst. inversion Hbs as [|? ? Hb1 Hb2]; subst. inversion Hfit as [|? ? Hf1 Hf2]; subst.
    assert (Es : s = next_start w (c + size w lc) (l + b)).
    { eapply least_multiple_unique; [exact Hlm|apply next_start_least; lia]. }
    destruct Hin1 as [Hi1 Hi2]. cbn [fst snd] in Hi1, Hi2. pose proof (size_pos w (l + b) ltac:(lia)) as HS.
    pose proof (block_bound _ _ _ _ Hb) as HB.
    destruct (next_subnet_spec cur w c lc (l + b) Hw Hc ltac:(lia)) as [next [ro [E [_ H2]]]]. rewrite <- Es in H2.
    destruct H2 as [H2 H3]; [intros [-> Hx]; specialize (Hpl eq_refl); lia|].
    specialize (H3 ltac:(lia)).
    assert (ro = false) as ->.
    { destruct ro; [|reflexivity]. exfalso. destruct (proj1 H2 eq_refl) as [H|[-> H]]; [lia|]. specialize (Hpl eq_refl). lia. }
    destruct (IH bs next s (l + b)%Z H3 Hff' Hin2 Hb2 Hlen Hf2) as [rest Hrest].
    exists (next :: rest). cbn [map subnets_loop]. rewrite to_int_small by exact Hb1. cbn [bindr].
    replace (b <? 1)%Z with false by lia. replace (32 <? b)%Z with false by lia.
    rewrite (proj1 (proj2 (block_ip _ _ _ _ Hb))). replace (Z.of_nat w * 8 <? b + l)%Z with false by lia.
    rewrite (Z.add_comm b l), E. cbn [bindr].
    assert (Ec : contains network (ip_bytes (net_ip next)) = true).
    { apply (contains_block _ w base l _ s Hw Hb); [|exact (block_ip _ _ _ _ H3)| |lia];
        intros [-> Hx]; specialize (Hpl eq_refl); lia. }
    rewrite Ec. cbn [negb orb]. rewrite Hrest. reflexivity.
Qed.

(* PreviousSubnet: the network ending just before the prefix, or, at address zero, the
   last one of the address space. *)
Lemma previous_block : forall network base l w l', w = 4 \/ w = 16 -> is_block network w base l -> ~ v4_mapped w base ->
  (l <= l' <= 8 * Z.of_nat w)%Z ->
  exists p, is_block (previous_subnet network l') w p l' /\
    (p + size w l')%Z = if (base =? 0)%Z then (2 ^ (8 * Z.of_nat w))%Z else base.
Proof.
  intros network base l w l' Hw Hb Hm Hl'. pose proof (block_ip _ _ _ _ Hb) as Hip. pose proof Hb as [[Hl Hal] _].
  pose proof (size_pos w l' (proj2 Hl')) as HS. pose proof (block_bound _ _ _ _ Hb) as HB.
  assert (E4 : forall ip c, is_address ip w c -> ~ v4_mapped w c -> check_ipv4 ip = ip).
  { intros ip c Hi Hx. unfold check_ipv4. destruct Hw as [->| ->]; [rewrite to4_4 by apply Hi; reflexivity|].
    rewrite (proj2 (to4_number _ _ Hi) Hx). reflexivity. }
  unfold previous_subnet. rewrite (E4 _ _ Hip Hm). unfold dec_ip. rewrite (E4 _ _ Hip Hm).
  destruct (dec_number _ (proj1 Hip)) as [D1 [D2 D3]]. rewrite (proj1 (proj2 Hip)) in D2, D3. rewrite (proj2 (proj2 Hip)), pow256_2 in D3.
  rewrite (proj1 (proj2 Hip)). rewrite cidr_mask_z_in by lia. rewrite (ip_mask_same _ w) by (try exact Hw; exact D2).
  pose proof (masked _ _ _ l' (conj D1 (conj D2 D3)) ltac:(lia)) as Hma.
  set (d := ((base - 1) mod 2 ^ (8 * Z.of_nat w))%Z) in *. pose proof (mod_down d (size w l') HS) as [M1 M2].
  exists (d - d mod size w l')%Z. split.
  - split; [split; [lia|exact M1]|]. split; [eexists; split; [reflexivity|exact Hma]|]. apply mask_address. lia.
  - assert (Hal' : (base mod size w l' = 0)%Z).
    { apply Z.mod_divide; [lia|]. rewrite (size_split w l l') in Hal by lia. apply Z.mod_divide in Hal.
      - etransitivity; [apply Z.divide_factor_r|exact Hal].
      - apply Z.neq_mul_0. split; [apply Z.pow_nonzero|]; lia. }
    assert (Hend : ((2 ^ (8 * Z.of_nat w)) mod size w l' = 0)%Z).
    { apply Z.mod_divide; [lia|]. rewrite (size_whole w l') by lia. apply Z.divide_factor_r. }
    assert (K : forall x, (x mod size w l' = 0)%Z -> d = (x - 1)%Z -> (d - d mod size w l' + size w l' = x)%Z).
    { intros x Hx Hd. apply Z.mod_divide in Hx; [|lia]. apply Z.mod_divide in M1; [|lia]. destruct Hx as [q ->]. destruct M1 as [r Hr].
      rewrite Hr in *. clear Hr. rewrite Hd in M2. clear - M2 HS. set (S := size w l') in *. clearbody S. assert (q - 1 < r + 1)%Z by nia.
      assert (r < q)%Z by nia. assert (r = q - 1)%Z by lia. subst. ring. }
    destruct (base =? 0)%Z eqn:E0.
    + apply K; [exact Hend|]. unfold d. assert (base = 0%Z) as -> by lia. symmetry. apply Z.mod_unique with (-1)%Z; lia.
    + apply K; [exact Hal'|]. unfold d. apply Z.mod_small. pose proof (size_pos w l (proj2 Hl)). lia.
Qed.

Lemma next_nil : forall n, (1 <= n)%Z -> next_subnet (mkNet None []) n = Ok (mkNet (Some []) [], false).
Proof.
  intros n H.
  assert (E0 : cidr_mask_z n 0 = []) by (unfold cidr_mask_z; replace ((n <? 0) || (8 * Z.of_nat 0 <? n))%Z with true by lia; reflexivity).
  unfold next_subnet. change (last_address (mkNet None [])) with (Ok (@nil Z)). cbn [bindr length]. rewrite E0. reflexivity.
Qed.
Lemma previous_mapped : forall network base l n, is_block network 16 base l -> v4_mapped 16 base -> (33 <= n < 2 ^ 63)%Z ->
  previous_subnet network (wrap64 n) = mkNet None [].
Proof.
  intros network base l n Hb Hm Hn. pose proof (block_ip _ _ _ _ Hb) as Hip. pose proof (proj1 (to4_number _ _ Hip) Hm) as E4.
  assert (L4 : length (skipn 12 (ip_bytes (net_ip network))) = 4) by (rewrite skipn_length, (proj1 (proj2 Hip)); reflexivity).
  assert (B4 : bytes (skipn 12 (ip_bytes (net_ip network)))).
  { intros x Hin. apply (proj1 Hip). rewrite <- (firstn_skipn 12 (ip_bytes (net_ip network))). apply in_or_app. auto. }
  unfold previous_subnet. unfold check_ipv4 at 1 2 3. rewrite E4.
  unfold cidr_mask_z. rewrite L4. rewrite wrap64_small by lia. replace ((n <? 0) || (8 * Z.of_nat 4 <? n))%Z with true by lia.
  unfold dec_ip, check_ipv4. rewrite to4_4 by exact L4. unfold ip_mask. cbn [length]. change (0 =? 16) with false. cbn [andb].
  cbn [length Nat.eqb andb]. rewrite (proj1 (proj2 (dec_number _ B4))), L4. reflexivity.
Qed.
Lemma contains_nil : forall network base l, is_block network 16 base l -> v4_mapped 16 base -> contains network [] = false.
Proof.
  intros network base l Hb Hm. pose proof (block_ip _ _ _ _ Hb) as Hip. pose proof (proj1 (to4_number _ _ Hip) Hm) as E4.
  assert (L4 : length (skipn 12 (ip_bytes (net_ip network))) = 4) by (rewrite skipn_length, (proj1 (proj2 Hip)); reflexivity).
  unfold contains, network_number_and_mask. change (match net_ip network with Some l0 => l0 | None => [] end) with (ip_bytes (net_ip network)).
  rewrite E4. rewrite (block_mask _ _ _ _ Hb), length_mask. change (16 =? 4) with false. change (16 =? 16) with true. cbv iota. rewrite L4.
  change (4 =? 4) with true. cbv iota beta. change (to4 []) with (@None (list Z)). cbv iota. rewrite L4. reflexivity.
Qed.

(* An IPv4-mapped prefix never yields subnets. *)
Lemma mapped_subnets : forall network base l args first, is_block network 16 base l -> v4_mapped 16 base ->
  exists m, subnets_loop network l (Some first :: args) (previous_subnet network (wrap64 (first + l))) = Err m.
Proof.
  intros network base l args first Hb Hm.
  pose proof Hb as [[Hl Hal] _]. pose proof (mapped_length base l Hl Hal Hm) as H96.
  cbn [subnets_loop]. destruct (to_int (Some first)) as [b|m|m] eqn:Ei; cbn [bindr].
  2: { eauto. }
  2: { exfalso. revert Ei. unfold to_int. destruct (_ || _); discriminate. }
  apply to_int_some in Ei. injection Ei as ->.
  destruct (b <? 1)%Z eqn:E1; [eauto|]. destruct (32 <? b)%Z eqn:E2; [eauto|].
  match goal with |- context [if ?x then _ else _] => destruct x; [eauto|] end.
  rewrite (previous_mapped _ _ _ _ Hb Hm) by lia. rewrite next_nil by lia. cbn [bindr orb net_ip ip_bytes].
  rewrite (contains_nil _ _ _ Hb Hm). cbn [negb]. eauto.
Qed.
