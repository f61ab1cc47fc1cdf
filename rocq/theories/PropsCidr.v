(* Properties C40-C42: cidrsubnets, cidrhost, cidrsubnet, cidrnetmask. *)
From Verif Require Import Base IpModel IpSpec IpProofs IpProofs6 IpProofs7 IpProofs8 CidrModel CidrSpec CidrProofs CidrProofs2 CidrProofs3 CidrProofs4.
From Coq Require Import ZifyBool ZifyNat ZifyN.
Ltac Zify.zify_post_hook ::= Z.div_mod_to_equations.

Lemma mapped_dec : forall w c, v4_mapped w c \/ ~ v4_mapped w c.
Proof.
  intros w c. unfold v4_mapped. destruct (Nat.eq_dec w 16) as [->|H]; [|right; tauto].
  destruct (Z_le_gt_dec (65535 * 2 ^ 32) c), (Z_lt_ge_dec c (65536 * 2 ^ 32));
    (left; split; [reflexivity|lia]) || (right; intros [_ H]; lia).
Qed.
Lemma recover_ok : forall A (r : result A) a, recover r = Ok a <-> r = Ok a.
Proof. intros A [x|m|m] a; simpl; split; congruence. Qed.
Lemma recover_fail : forall A (r : result A), (exists m, r = Err m \/ r = Panic m) -> exists m, recover r = Err m.
Proof. intros A r [m [->| ->]]; simpl; eauto. Qed.
(* A text has at most one reading as a prefix. *)
Lemma prefix_unique : forall s w b l w' b' l', prefix_text s w b l -> prefix_text s w' b' l' -> w = w' /\ b = b' /\ l = l'.
Proof.
  intros s w b l w' b' l' H H'. destruct (parse_prefix _ _ _ _ H) as [ip [net [E [Hb _]]]].
  destruct (parse_prefix _ _ _ _ H') as [ip' [net' [E' [Hb' _]]]]. rewrite E in E'. injection E' as <- <-.
  destruct (block_ip _ _ _ _ Hb) as [_ [W1 N1]]. destruct (block_ip _ _ _ _ Hb') as [_ [W2 N2]].
  pose proof (block_size _ _ _ _ Hb) as S1. pose proof (block_size _ _ _ _ Hb') as S2. rewrite S1 in S2. injection S2 as S2.
  repeat split; congruence.
Qed.

(* -------------------------------------------------------------------- C40 *)

(* A successful call allocates by first fit: every network starts at the first multiple of
   its size that is not used yet, beginning with the start of the prefix. *)
Theorem C40_subnets : forall s args nets, cidr_subnets s args = Ok nets ->
  exists w base l bs cs, prefix_text s w base l /\ args = map Some bs /\ Forall (fun b => 1 <= b <= 32)%Z bs /\
    map snd cs = map (Z.add l) bs /\ Forall2 (block_at w) nets cs /\
    Forall (inside w base l) cs /\ ForallOrdPairs (before w) cs /\ first_fit w base cs.
Proof.
  intros s args nets H. unfold cidr_subnets in H. apply (proj1 (recover_ok _ _ _)) in H. apply bindr_Ok in H as [[ip net] [Hp H]].
  destruct (parse_prefix_inv _ _ _ Hp) as [w [base [l Ht]]]. destruct (parse_prefix _ _ _ _ Ht) as [ip' [net' [Hp' [Hb Hw]]]].
  rewrite Hp in Hp'. injection Hp' as <- <-. cbn [snd] in H. rewrite (block_size _ _ _ _ Hb) in H. cbn [fst] in H.
  exists w, base, l. destruct args as [|a args].
  { injection H as <-. exists [], []. repeat split; try constructor; exact Ht. }
  apply bindr_Ok in H as [first [Hf H]]. apply to_int_some in Hf. subst a.
  destruct (mapped_dec w base) as [Hm|Hm].
  { exfalso. pose proof Hm as [-> _]. destruct (mapped_subnets net base l args first Hb Hm) as [m E]. congruence. }
  pose proof Hb as [[Hl Hal] _].
  assert (Hfirst : (1 <= first <= 32 /\ l + first <= 8 * Z.of_nat w)%Z).
  { cbn [subnets_loop] in H. apply bindr_Ok in H as [b [Hb0 H]]. apply to_int_some in Hb0. injection Hb0 as <-.
    destruct (first <? 1)%Z eqn:E1; [discriminate|]. destruct (32 <? first)%Z eqn:E2; [discriminate|].
    rewrite (proj1 (proj2 (block_ip _ _ _ _ Hb))) in H. destruct (Z.of_nat w * 8 <? first + l)%Z eqn:E3; [discriminate|]. lia. }
  assert (Hw8 : (8 * Z.of_nat w <= 128)%Z) by (destruct Hw; subst; lia).
  rewrite wrap64_small in H by lia.
  destruct (previous_block net base l w (first + l) Hw Hb Hm ltac:(lia)) as [p [Hpb Hpe]].
  destruct (loop_sound net base l w Hw Hb Hm _ _ _ _ _ Hpb H) as [bs [cs [E1 [F1 [F2 [F3 [F4 F5]]]]]]].
  assert (Hbase : (base =? 0)%Z = false).
  { destruct (base =? 0)%Z eqn:E0; [|reflexivity]. exfalso.
    destruct bs as [|b bs]; [discriminate E1|]. destruct cs as [|[c lc] cs]; [discriminate F2|].
    inversion F4 as [|? ? ? ? [G1 _] _]; subst. inversion F5 as [|? ? [G2 G3] _]; subst. cbn [fst snd] in G2, G3.
    pose proof (block_bound _ _ _ _ Hb). rewrite Hpe in G1.
    cbn [map snd] in F2. injection F2 as Elc _. assert (0 < size w lc)%Z by (unfold size; apply Z.pow_pos_nonneg; inversion F1; subst; cbn [map] in E1; injection E1 as <- _; lia). lia. }
  rewrite Hbase in Hpe. rewrite Hpe in F4.
  exists bs, cs. repeat split; try assumption. eapply first_fit_ordered; exact F4.
Qed.
Print Assumptions C40_subnets.

(* Conversely every first fit inside the prefix is found, for the prefixes called plain. *)
Theorem C40_complete_partial : forall s w base l bs cs, prefix_text s w base l -> plain w base l ->
  Forall (fun b => 1 <= b <= 32 /\ l + b <= 8 * Z.of_nat w)%Z bs -> map snd cs = map (Z.add l) bs ->
  first_fit w base cs -> Forall (inside w base l) cs ->
  exists nets, cidr_subnets s (map Some bs) = Ok nets /\ Forall2 (block_at w) nets cs.
Proof.
  intros s w base l bs cs Ht Hpl Hbs Hlen Hff Hin.
  assert (Hbs1 : Forall (fun b => 1 <= b <= 32)%Z bs) by (eapply Forall_impl; [|exact Hbs]; cbn; tauto).
  assert (Hbs2 : Forall (fun b => l + b <= 8 * Z.of_nat w)%Z bs) by (eapply Forall_impl; [|exact Hbs]; cbn; tauto).
  assert (Hok : exists nets, cidr_subnets s (map Some bs) = Ok nets).
  { destruct (parse_prefix _ _ _ _ Ht) as [ip [net [Hp [Hb Hw]]]]. pose proof Hb as [[Hl Hal] _]. pose proof (size_pos w l (proj2 Hl)) as HSl.
    unfold cidr_subnets. rewrite Hp. cbn [bindr snd]. rewrite (block_size _ _ _ _ Hb). cbn [fst].
    destruct bs as [|b bs]; [cbn [map]; eexists; reflexivity|].
    inversion Hbs1 as [|? ? B1 B2]; subst. inversion Hbs2 as [|? ? B3 B4]; subst.
    assert (Hw8 : (8 * Z.of_nat w <= 128)%Z) by (destruct Hw; subst; lia).
    assert (Hm : ~ v4_mapped w base) by (intros [-> Hx]; destruct Hpl as [_ Hpl]; specialize (Hpl eq_refl); lia).
    destruct (previous_block net base l w (b + l) Hw Hb Hm ltac:(lia)) as [p [Hpb Hpe]].
    destruct Hpl as [Hpos Hpl]. replace (base =? 0)%Z with false in Hpe by lia.
    destruct (loop_complete net base l w Hw Hb (conj Hpos Hpl) cs (b :: bs) _ _ _ Hpb) as [nets Hn]; try assumption; [rewrite Hpe; exact Hff|].
    exists nets. apply (proj2 (recover_ok _ _ _)). cbn [map] in Hn |- *. rewrite to_int_small by lia. cbn [bindr]. rewrite wrap64_small by lia. exact Hn. }
  destruct Hok as [nets Hok]. exists nets. split; [exact Hok|].
  destruct (C40_subnets _ _ _ Hok) as [w' [base' [l' [bs' [cs' [Ht' [E1 [_ [E2 [F [_ [_ Hff']]]]]]]]]]]].
  destruct (prefix_unique _ _ _ _ _ _ _ Ht Ht') as [<- [<- <-]].
  assert (Ebs : bs' = bs).
  { clear - E1. revert bs' E1. induction bs as [|b bs IH]; intros [|b' bs'] E; try discriminate E; [reflexivity|].
    cbn in E. injection E as <- E. f_equal. apply IH. exact E. }
  subst bs'. rewrite <- E2 in Hlen.
  assert (Ecs : cs' = cs).
  { clear - Hlen Hff Hff'. revert cs Hlen Hff. induction Hff' as [e|e c l r H1 H2 IH]; intros [|[c' l'] cs] E H; try discriminate E; [reflexivity|].
    cbn in E. injection E as -> E. inversion H as [|? ? ? ? G1 G2]; subst. rewrite (least_multiple_unique _ _ _ _ H1 G1) in *.
    f_equal. apply IH; assumption. }
  subst cs'. exact F.
Qed.
Print Assumptions C40_complete_partial.

(* The other prefixes: nothing is found at address zero, next to or inside the IPv4-mapped
   range, although half of the prefix is a subnet. *)
Theorem C40_complete_refuted : exists s w base l, prefix_text s w base l /\ (l + 1 <= 8 * Z.of_nat w)%Z /\
  forall e, cidr_subnets s [Some 1%Z] <> Ok e.
Proof.
  assert (K : forall s r, parse_cidr s = Ok r -> exists w base l, prefix_text s w base l) by (intros s [ip net]; apply parse_prefix_inv).
  destruct (K "0.0.0.0/8" _ eq_refl) as [w [base [l Ht]]]. exists "0.0.0.0/8", w, base, l. split; [exact Ht|].
  destruct (parse_prefix _ _ _ _ Ht) as [ip [net [E [Hb _]]]]. vm_compute in E. injection E as <- <-.
  destruct (block_ip _ _ _ _ Hb) as [_ [Hw _]]. vm_compute in Hw. subst w.
  pose proof (block_size _ _ _ _ Hb) as S. vm_compute in S. injection S as <-. split; [lia|vm_compute; discriminate].
Qed.

Example C40_nonvacuous :
  cidr_subnets "10.0.0.0/21" (map Some [3; 4; 3; 7]%Z) =
    Ok [mkNet (Some [10; 0; 0; 0]) [255; 255; 255; 0]; mkNet (Some [10; 0; 1; 0]) [255; 255; 255; 128];
        mkNet (Some [10; 0; 2; 0]) [255; 255; 255; 0]; mkNet (Some [10; 0; 3; 0]) [255; 255; 255; 240]]%Z /\
  (exists e, cidr_subnets "10.0.0.0/8" (map Some [1; 1; 1]%Z) = Err e) /\
  (exists e, cidr_subnets "10.0.0.0/30" (map Some [1; 3]%Z) = Err e) /\
  (exists e, cidr_subnets "10.0.0.0/8" (map Some [1; 0]%Z) = Err e) /\
  (exists e, cidr_subnets "fe80::/48" (map Some [1; 33]%Z) = Err e) /\
  (exists e, cidr_subnets "::1:0:0:0/80" [Some 1%Z] = Err e) /\ (exists e, cidr_subnets "::ffff:10.0.0.0/104" [Some 1%Z] = Err e) /\
  cidr_subnets "fe80::/64" [Some 1; Some 32]%Z =
    Ok [mkNet (Some (254 :: 128 :: zeros 14)) (repeat 255 8 ++ 128 :: zeros 7);
        mkNet (Some (254 :: 128 :: zeros 6 ++ 128 :: zeros 7)) (repeat 255 12 ++ zeros 4)]%Z.
Proof. repeat split; try (eexists; vm_compute; reflexivity); vm_compute; reflexivity. Qed.

(* -------------------------------------------------------------------- C41 *)

(* Full statement: the same without the guards on the prefix and on n.  See C41_host_refuted. *)
Theorem C41_host_partial : forall s w base l n, prefix_text s w base l -> ~ v4_mapped w base -> w = 4 \/ (n < 2 ^ 63)%Z ->
  ((0 <= host_index w l n < size w l)%Z ->
     exists ip, cidr_host s (Some n) = Ok ip /\ is_address ip w (base + host_index w l n)) /\
  (~ (0 <= host_index w l n < size w l)%Z -> exists m, cidr_host s (Some n) = Err m).
Proof.
  intros s w base l n Ht Hm Hn. destruct (parse_prefix _ _ _ _ Ht) as [ip [net [Hp [Hb Hw]]]].
  destruct (host_big_spec net w base l n Hw Hb Hm Hn) as [H1 H2]. unfold cidr_host. cbn [to_big bindr]. rewrite Hp. cbn [bindr snd].
  split; intros H; [destruct (H1 H) as [x [E Hx]]; exists x; split; [apply (proj2 (recover_ok _ _ _)); exact E|exact Hx]|].
  apply recover_fail. apply H2. exact H.
Qed.
Print Assumptions C41_host_partial.

(* Different numbers of the same sign give different addresses. *)
Theorem C41_host_injective_partial : forall s w base l n n' ip, prefix_text s w base l -> ~ v4_mapped w base ->
  w = 4 \/ (n < 2 ^ 63 /\ n' < 2 ^ 63)%Z -> ((0 <= n)%Z <-> (0 <= n')%Z) ->
  cidr_host s (Some n) = Ok ip -> cidr_host s (Some n') = Ok ip -> n = n'.
Proof.
  intros s w base l n n' ip Ht Hm Hn Hsign H H'.
  destruct (C41_host_partial s w base l n Ht Hm ltac:(tauto)) as [A1 A2].
  destruct (C41_host_partial s w base l n' Ht Hm ltac:(tauto)) as [B1 B2].
  assert (D : forall i, (0 <= i < size w l)%Z \/ ~ (0 <= i < size w l)%Z) by (intros i; lia).
  destruct (D (host_index w l n)) as [Hi|Hi]; [|destruct (A2 Hi) as [m E]; congruence].
  destruct (D (host_index w l n')) as [Hi'|Hi']; [|destruct (B2 Hi') as [m E]; congruence].
  destruct (A1 Hi) as [x [Ex [_ [_ Hx]]]]. destruct (B1 Hi') as [y [Ey [_ [_ Hy]]]].
  assert (x = y) by congruence. subst y. unfold host_index in *.
  destruct (n <? 0)%Z eqn:E1, (n' <? 0)%Z eqn:E2; lia.
Qed.
Print Assumptions C41_host_injective_partial.

(* An IPv6 host number of more than 64 bits, or any host of an IPv4-mapped prefix, can lie
   outside the prefix. *)
Theorem C41_host_refuted :
  (exists s base l n ip c, prefix_text s 16 base l /\ (0 <= n)%Z /\ cidr_host s (Some n) = Ok ip /\ is_address ip 16 c /\
     (base + size 16 l <= c)%Z /\ ~ v4_mapped 16 base) /\
  (exists s base l n ip c, prefix_text s 16 base l /\ (0 <= n < size 16 l)%Z /\ cidr_host s (Some n) = Ok ip /\ is_address ip 16 c /\
     (base + size 16 l <= c)%Z).
Proof.
  assert (K : forall s r, parse_cidr s = Ok r -> exists w base l, prefix_text s w base l) by (intros s [ip net]; apply parse_prefix_inv).
  assert (B : forall l, Forall (fun b => 0 <= b <= 255)%Z l -> bytes l) by (intros l H b Hb; rewrite Forall_forall in H; apply H; exact Hb).
  split.
  - destruct (K "fd00::/64" _ eq_refl) as [w [base [l Ht]]].
    destruct (parse_prefix _ _ _ _ Ht) as [ip [net [E [Hb _]]]]. vm_compute in E. injection E as <- <-.
    destruct (block_ip _ _ _ _ Hb) as [_ [Hw Hc]]. vm_compute in Hw. subst w. vm_compute in Hc.
    pose proof (block_size _ _ _ _ Hb) as S. vm_compute in S. injection S as <-. subst base.
    do 3 eexists. exists (2 ^ 64)%Z. do 2 eexists. split; [exact Ht|]. split; [lia|]. split; [vm_compute; reflexivity|].
    split; [split; [apply B; repeat constructor; lia|split; reflexivity]|]. split; [vm_compute; discriminate|].
    intros [_ [_ H]]. vm_compute in H. discriminate.
  - destruct (K "::ffff:10.0.0.0/104" _ eq_refl) as [w [base [l Ht]]].
    destruct (parse_prefix _ _ _ _ Ht) as [ip [net [E [Hb _]]]]. vm_compute in E. injection E as <- <-.
    destruct (block_ip _ _ _ _ Hb) as [_ [Hw Hc]]. vm_compute in Hw. subst w. vm_compute in Hc.
    pose proof (block_size _ _ _ _ Hb) as S. vm_compute in S. injection S as <-. subst base.
    do 3 eexists. exists 5%Z. do 2 eexists. split; [exact Ht|]. split; [split; [discriminate|reflexivity]|].
    split; [vm_compute; reflexivity|]. split; [split; [apply B; repeat constructor; lia|split; reflexivity]|]. vm_compute; discriminate.
Qed.

(* Full statement: the same for every b and n.  See C41_subnet_refuted. *)
Theorem C41_subnet_partial : forall s w base l b n, prefix_text s w base l ->
  (0 <= b < 2 ^ 62)%Z -> (0 <= n)%Z -> w = 4 \/ (n < 2 ^ 64)%Z ->
  ((l + b <= 8 * Z.of_nat w /\ n < 2 ^ b)%Z ->
     exists net, cidr_subnet s (Some b) (Some n) = Ok net /\
       is_block net w (base + n * size w (l + b)) (l + b) /\ inside w base l (base + n * size w (l + b), l + b)%Z) /\
  (~ (l + b <= 8 * Z.of_nat w /\ n < 2 ^ b)%Z -> exists m, cidr_subnet s (Some b) (Some n) = Err m).
Proof.
  intros s w base l b n Ht Hb0 Hn Hfit. destruct (parse_prefix _ _ _ _ Ht) as [ip [net [Hp [Hb Hw]]]].
  destruct (subnet_big_spec net w base l b n Hw Hb Hb0 Hn Hfit) as [H1 H2]. unfold cidr_subnet.
  assert (Ei : to_int (Some b) = Ok b).
  { unfold to_int, min_int, max_int. replace ((b <? - 2 ^ 63) || (2 ^ 63 - 1 <? b))%Z with false by lia. reflexivity. }
  rewrite Ei. cbn [to_big bindr]. rewrite Hp. cbn [bindr snd].
  split; intros H.
  - destruct (H1 H) as [x [E Hx]]. exists x. split; [apply (proj2 (recover_ok _ _ _)); exact E|]. split; [exact Hx|].
    unfold inside. cbn [fst snd]. destruct Hb as [[Hl _] _]. rewrite (size_split w l (l + b)) by lia.
    pose proof (size_pos w (l + b) ltac:(lia)) as HS. replace (l + b - l)%Z with b by lia.
    set (S := size w (l + b)) in *. set (Q := (2 ^ b)%Z) in *. clearbody S Q. clear - H HS Hn. nia.
  - apply recover_fail. apply H2. exact H.
Qed.
Print Assumptions C41_subnet_partial.

(* Different numbers give disjoint networks. *)
Theorem C41_subnet_disjoint_partial : forall s w base l b n n' net net', prefix_text s w base l ->
  (0 <= b < 2 ^ 62)%Z -> (0 <= n < n')%Z -> w = 4 \/ (n' < 2 ^ 64)%Z ->
  cidr_subnet s (Some b) (Some n) = Ok net -> cidr_subnet s (Some b) (Some n') = Ok net' ->
  exists c c', is_block net w c (l + b) /\ is_block net' w c' (l + b) /\ before w (c, l + b)%Z (c', l + b)%Z.
Proof.
  intros s w base l b n n' net net' Ht Hb Hn Hfit H H'.
  destruct (C41_subnet_partial s w base l b n Ht Hb ltac:(lia) ltac:(destruct Hfit; [auto|right; lia])) as [A1 A2].
  destruct (C41_subnet_partial s w base l b n' Ht Hb ltac:(lia) Hfit) as [B1 B2].
  assert (D : forall x, (l + b <= 8 * Z.of_nat w /\ x < 2 ^ b)%Z \/ ~ (l + b <= 8 * Z.of_nat w /\ x < 2 ^ b)%Z) by (intros x; lia).
  destruct (D n) as [Hi|Hi]; [|destruct (A2 Hi) as [m E]; congruence].
  destruct (D n') as [Hi'|Hi']; [|destruct (B2 Hi') as [m E]; congruence].
  destruct (A1 Hi) as [x [Ex [Hx _]]]. destruct (B1 Hi') as [y [Ey [Hy _]]].
  assert (x = net) by congruence. assert (y = net') by congruence. subst x y.
  do 2 eexists. split; [exact Hx|]. split; [exact Hy|]. unfold before. cbn [fst snd].
  pose proof (size_pos w (l + b) (proj1 Hi)) as HS. set (S := size w (l + b)) in *. clearbody S. clear - HS Hn. nia.
Qed.
Print Assumptions C41_subnet_disjoint_partial.

(* A negative newbits gives a larger network, a negative number or an IPv6 number of more
   than 64 bits a network outside the prefix. *)
Theorem C41_subnet_refuted :
  (exists s base l n net c l', prefix_text s 4 base l /\ (0 <= n)%Z /\ cidr_subnet s (Some (-1)%Z) (Some n) = Ok net /\
     is_block net 4 c l' /\ (l' < l)%Z) /\
  (exists s base l b n net c l', prefix_text s 4 base l /\ (0 <= b)%Z /\ cidr_subnet s (Some b) (Some n) = Ok net /\
     is_block net 4 c l' /\ (c + size 4 l' <= base)%Z) /\
  (exists s base l b n net c l', prefix_text s 16 base l /\ (0 <= b)%Z /\ (0 <= n)%Z /\ cidr_subnet s (Some b) (Some n) = Ok net /\
     is_block net 16 c l' /\ (base + size 16 l <= c)%Z).
Proof.
  assert (K : forall s r, parse_cidr s = Ok r -> exists w base l, prefix_text s w base l) by (intros s [ip net]; apply parse_prefix_inv).
  assert (B : forall l, Forall (fun b => 0 <= b <= 255)%Z l -> bytes l) by (intros l H b Hb; rewrite Forall_forall in H; apply H; exact Hb).
  assert (M : forall net w c l, (0 <= l <= 8 * Z.of_nat w)%Z -> (c mod size w l = 0)%Z ->
    match net with mkNet (Some ip) m => Forall (fun b => 0 <= b <= 255)%Z ip /\ length ip = w /\ number ip = c /\ m = cidr_mask w (Z.to_nat l) | _ => False end ->
    is_block net w c l).
  { intros [[ip|] m] w c l Hl Hc H; [|destruct H]. destruct H as [H1 [H2 [H3 ->]]]. split; [auto|].
    split; [exists ip; split; [reflexivity|split; [apply B; exact H1|auto]]|apply mask_address; exact Hl]. }
  repeat split.
  - destruct (K "10.0.0.0/8" _ eq_refl) as [w [base [l Ht]]].
    destruct (parse_prefix _ _ _ _ Ht) as [ip [net [E [Hb _]]]]. vm_compute in E. injection E as <- <-.
    destruct (block_ip _ _ _ _ Hb) as [_ [Hw Hc]]. vm_compute in Hw. subst w. vm_compute in Hc.
    pose proof (block_size _ _ _ _ Hb) as S. vm_compute in S. injection S as <-. subst base.
    do 3 eexists. exists 0%Z. do 2 eexists. exists 7%Z. split; [exact Ht|]. split; [lia|]. split; [vm_compute; reflexivity|].
    split; [|lia]. apply M; [lia| |split; [repeat constructor; lia|repeat split]]; reflexivity.
  - destruct (K "10.0.0.0/8" _ eq_refl) as [w [base [l Ht]]].
    destruct (parse_prefix _ _ _ _ Ht) as [ip [net [E [Hb _]]]]. vm_compute in E. injection E as <- <-.
    destruct (block_ip _ _ _ _ Hb) as [_ [Hw Hc]]. vm_compute in Hw. subst w. vm_compute in Hc.
    pose proof (block_size _ _ _ _ Hb) as S. vm_compute in S. injection S as <-. subst base.
    do 3 eexists. exists 8%Z, (-1)%Z. do 2 eexists. exists 16%Z. split; [exact Ht|]. split; [lia|]. split; [vm_compute; reflexivity|].
    split; [apply M; [lia| |split; [repeat constructor; lia|repeat split]]; reflexivity|]. vm_compute. discriminate.
  - destruct (K "fd00::/64" _ eq_refl) as [w [base [l Ht]]].
    destruct (parse_prefix _ _ _ _ Ht) as [ip [net [E [Hb _]]]]. vm_compute in E. injection E as <- <-.
    destruct (block_ip _ _ _ _ Hb) as [_ [Hw Hc]]. vm_compute in Hw. subst w. vm_compute in Hc.
    pose proof (block_size _ _ _ _ Hb) as S. vm_compute in S. injection S as <-. subst base.
    do 3 eexists. exists 16%Z, (2 ^ 64)%Z. do 2 eexists. exists 80%Z. split; [exact Ht|]. split; [lia|]. split; [lia|]. split; [vm_compute; reflexivity|].
    split; [apply M; [lia| |split; [repeat constructor; lia|repeat split]]; reflexivity|]. vm_compute. discriminate.
Qed.

Example C41_nonvacuous :
  cidr_host "192.168.1.0/24" (Some 5%Z) = Ok [192; 168; 1; 5]%Z /\
  cidr_host "192.168.1.0/24" (Some (-5)%Z) = Ok [192; 168; 1; 251]%Z /\
  cidr_host "192.168.1.0/24" (Some (-256)%Z) = Ok [192; 168; 1; 0]%Z /\
  (exists e, cidr_host "192.168.1.0/30" (Some 255%Z) = Err e) /\ (exists e, cidr_host "192.168.1.0/30" (Some (-255)%Z) = Err e) /\
  (exists e, cidr_host "not-a-cidr" (Some 6%Z) = Err e) /\ (exists e, cidr_host "10.0.0.0/8" None = Err e) /\
  cidr_subnet "192.168.2.0/20" (Some 4%Z) (Some 6%Z) = Ok (mkNet (Some [192; 168; 6; 0]) [255; 255; 255; 0])%Z /\
  cidr_subnet "fe80::/48" (Some 33%Z) (Some 6%Z) =
    Ok (mkNet (Some (254 :: 128 :: zeros 7 ++ 3 :: zeros 6)) (repeat 255 10 ++ 128 :: zeros 5))%Z /\
  (exists e, cidr_subnet "192.168.0.0/30" (Some 4%Z) (Some 6%Z) = Err e) /\
  (exists e, cidr_subnet "10.0.0.0/8" (Some 2%Z) (Some 4%Z) = Err e) /\ (exists e, cidr_subnet "10.256.0.0/8" (Some 4%Z) (Some 6%Z) = Err e).
Proof. repeat split; try (eexists; vm_compute; reflexivity); vm_compute; reflexivity. Qed.

(* -------------------------------------------------------------------- C42 *)

(* The mask has l leading ones: it is the number 2^32 - 2^(32-l). *)
Theorem C42_netmask : forall s base l, prefix_text s 4 base l ->
  exists m, cidr_netmask s = Ok m /\ is_address m 4 (2 ^ 32 - 2 ^ (32 - l)).
Proof.
  intros s base l Ht. destruct (parse_prefix _ _ _ _ Ht) as [ip [net [Hp [Hb Hw]]]]. unfold cidr_netmask. rewrite Hp. cbn [bindr snd].
  rewrite to4_4 by apply (block_ip _ _ _ _ Hb). exists (net_mask net). split; [reflexivity|]. apply Hb.
Qed.
Print Assumptions C42_netmask.

(* Bit by bit: the first l bits are ones, the others zeros. *)
Theorem C42_netmask_bits : forall s base l m i, prefix_text s 4 base l -> cidr_netmask s = Ok m -> (0 <= i < 32)%Z ->
  Z.testbit (number m) (31 - i) = (i <? l)%Z.
Proof.
  intros s base l m i Ht Hm Hi. destruct (C42_netmask _ _ _ Ht) as [m' [E [_ [_ Hn]]]]. assert (m' = m) by congruence. subst m'. rewrite Hn.
  destruct Ht as [_ [p [_ [_ [_ [Hp [Hl _]]]]]]]. apply decimal_pos in Hp.
  replace (2 ^ 32 - 2 ^ (32 - l))%Z with (Z.shiftl (Z.ones l) (32 - l)).
  - rewrite Z.shiftl_spec by lia. destruct (i <? l)%Z eqn:El.
    + apply Z.ones_spec_low. lia.
    + apply Z.testbit_neg_r. lia.
  - rewrite Z.shiftl_mul_pow2, Z.ones_equiv by lia. rewrite Z.mul_pred_l, <- Z.pow_add_r by lia. replace (l + (32 - l))%Z with 32%Z by lia. reflexivity.
Qed.
Print Assumptions C42_netmask_bits.

(* Full statement: every IPv6 prefix is rejected.  An IPv4-mapped one is not. *)
Theorem C42_ipv6_rejected_partial : forall s base l, prefix_text s 16 base l -> ~ v4_mapped 16 base ->
  exists e, cidr_netmask s = Err e.
Proof.
  intros s base l Ht Hm. destruct (parse_prefix _ _ _ _ Ht) as [ip [net [Hp [Hb Hw]]]]. unfold cidr_netmask. rewrite Hp. cbn [bindr snd].
  rewrite (proj2 (to4_number _ _ (block_ip _ _ _ _ Hb)) Hm). eexists; reflexivity.
Qed.
Print Assumptions C42_ipv6_rejected_partial.

Theorem C42_ipv6_rejected_refuted : exists s base l m, prefix_text s 16 base l /\ cidr_netmask s = Ok m.
Proof.
  destruct (parse_prefix_inv "::ffff:10.0.0.0/104" _ _ eq_refl) as [w [base [l Ht]]].
  destruct (parse_prefix _ _ _ _ Ht) as [ip [net [E [Hb _]]]]. vm_compute in E. injection E as <- <-.
  destruct (block_ip _ _ _ _ Hb) as [_ [Hw Hc]]. vm_compute in Hw. subst w.
  do 4 eexists. split; [exact Ht|]. vm_compute. reflexivity.
Qed.

(* A text that is no prefix is rejected by all four functions. *)
Theorem C42_bad_prefix : forall s, (forall w base l, ~ prefix_text s w base l) -> forall a b l,
  (exists e, cidr_netmask s = Err e) /\ (exists e, cidr_host s a = Err e) /\ (exists e, cidr_subnet s a b = Err e) /\
  (exists e, cidr_subnets s l = Err e).
Proof.
  intros s H a b l. assert (E : exists e, parse_cidr s = Err e).
  { destruct (parse_cidr_cases s) as [E|[addr [p [n [ip [w [q [_ [_ [_ [_ E]]]]]]]]]]]; [exact E|].
    destruct (parse_prefix_inv _ _ _ E) as [w' [base [l' Ht]]]. exfalso. exact (H _ _ _ Ht). }
  destruct E as [e E]. unfold cidr_netmask, cidr_host, cidr_subnet, cidr_subnets. rewrite E. cbn [bindr].
  repeat split; try (eexists; reflexivity).
  - destruct (to_big a) as [z|m|m]; cbn [bindr]; eexists; reflexivity.
  - destruct (to_int a) as [z|m|m]; cbn [bindr]; [|eexists; reflexivity|eexists; reflexivity].
    destruct (to_big b) as [z'|m|m]; cbn [bindr]; eexists; reflexivity.
Qed.
Print Assumptions C42_bad_prefix.

Example C42_nonvacuous :
  cidr_netmask "192.168.1.0/24" = Ok [255; 255; 255; 0]%Z /\ cidr_netmask "192.168.1.0/32" = Ok [255; 255; 255; 255]%Z /\
  cidr_netmask "0.0.0.0/0" = Ok [0; 0; 0; 0]%Z /\ cidr_netmask "010.001.0.0/24" = Ok [255; 255; 255; 0]%Z /\
  (exists e, cidr_netmask "not-a-cidr" = Err e) /\ (exists e, cidr_netmask "110.256.0.0/8" = Err e) /\
  (exists e, cidr_netmask "1::/64" = Err e) /\ cidr_netmask "10.0.0.0/13" = Ok [255; 248; 0; 0]%Z.
Proof. repeat split; try (eexists; vm_compute; reflexivity); vm_compute; reflexivity. Qed.
