(* Proofs about IPNet.Contains on the result of ParseCIDR. *)

From Coq Require Import ZifyBool ZifyNat ZifyN.
From Verif Require Import Base IpModel IpSpec IpProofs IpProofs6 IpProofs7.
Ltac Zify.zify_post_hook ::= Z.div_mod_to_equations.

Lemma list_eqb_eq : forall a b, list_eqb a b = true <-> a = b.
Proof. intros a b; unfold list_eqb. destruct (list_eq_dec Z.eq_dec a b); split; congruence. Qed.

Lemma and_idem : forall a m, and_bytes (and_bytes a m) m = and_bytes a m.
Proof.
  intros a; induction a as [|x a IH]; intros [|y m]; try reflexivity.
  unfold and_bytes in *. simpl. f_equal; [|apply IH]. rewrite <- Z.land_assoc, Z.land_diag. reflexivity.
Qed.

Lemma and_app : forall a b m n, length a = length m -> and_bytes (a ++ b) (m ++ n) = and_bytes a m ++ and_bytes b n.
Proof.
  intros a; induction a as [|x a IH]; intros b [|y m] n H; try discriminate; [reflexivity|].
  unfold and_bytes in *. simpl. f_equal. apply IH. simpl in H; lia.
Qed.

Lemma land_255 : forall x, (0 <= x <= 255)%Z -> Z.land x 255 = x.
Proof. intros x H. change 255%Z with (Z.ones 8). rewrite Z.land_ones by lia. apply Z.mod_small; change (2 ^ 8)%Z with 256%Z; lia. Qed.

Lemma and_255 : forall a, bytes a -> and_bytes a (repeat 255%Z (length a)) = a.
Proof.
  intros a; induction a as [|x a IH]; intros H; [reflexivity|]. unfold and_bytes in *. simpl.
  rewrite land_255 by (apply H; left; reflexivity). f_equal. apply IH. intros b Hb. apply H; right; exact Hb.
Qed.

Lemma mask_split : forall k l n, cidr_mask (k + l) (8 * k + n) = repeat 255%Z k ++ cidr_mask l n.
Proof.
  intros k; induction k as [|k IH]; intros l n; [reflexivity|].
  cbn [Nat.add cidr_mask repeat app]. replace (8 <=? 8 * S k + n) with true by lia.
  replace (8 * S k + n - 8) with (8 * k + n) by lia. rewrite IH. reflexivity.
Qed.

Lemma mask_nth : forall k l n, n < 8 * S k -> (nth k (cidr_mask l n) 0 < 255)%Z.
Proof.
  intros k; induction k as [|k IH]; intros l n H; (destruct l as [|l]; [reflexivity|]).
  - cbn [cidr_mask]. replace (8 <=? n) with false by lia. cbn [nth]. destruct (partial_byte n ltac:(lia)) as [_ ->].
    assert (0 < 2 ^ (8 - Z.of_nat n))%Z by (apply Z.pow_pos_nonneg; lia).
    assert (2 ^ 1 <= 2 ^ (8 - Z.of_nat n))%Z by (apply Z.pow_le_mono_r; lia). lia.
  - cbn [cidr_mask]. destruct (8 <=? n) eqn:E; cbn [nth].
    + apply IH. lia.
    + apply IH. lia.
Qed.

Lemma nth_and : forall k a m, length a = length m -> nth k (and_bytes a m) 0%Z = Z.land (nth k a 0%Z) (nth k m 0%Z).
Proof.
  intros k a; revert k; induction a as [|x a IH]; intros k [|y m] H; try discriminate.
  - destruct k; reflexivity.
  - destruct k; [reflexivity|]. unfold and_bytes in *. simpl. apply IH. simpl in H; lia.
Qed.

(* The masked address starts with the IPv4-mapped prefix exactly when the address does and at
   least 96 bits are kept. *)
Lemma mapped_net : forall a n, bytes a -> length a = 16 -> n <= 128 ->
  (firstn 12 (and_bytes a (cidr_mask 16 n)) = v4_prefix <-> firstn 12 a = v4_prefix /\ 96 <= n).
Proof.
  intros a n Hb Hl Hn. destruct (Nat.le_gt_cases 96 n) as [Hge|Hlt].
  - assert (E : firstn 12 (and_bytes a (cidr_mask 16 n)) = firstn 12 a).
    { replace n with (8 * 12 + (n - 96)) by lia. change 16 with (12 + 4) at 1. rewrite mask_split.
      rewrite <- (firstn_skipn 12 a) at 1. assert (H12 : length (firstn 12 a) = 12) by (rewrite firstn_length; lia).
      rewrite and_app by (rewrite repeat_length; exact H12).
      assert (E255 : and_bytes (firstn 12 a) (repeat 255%Z 12) = firstn 12 a).
      { rewrite <- H12 at 2. apply and_255. intros b Hin; apply Hb; rewrite <- (firstn_skipn 12 a); apply in_or_app; left; exact Hin. }
      rewrite E255.
      rewrite firstn_app. rewrite H12. rewrite Nat.sub_diag. rewrite firstn_O, app_nil_r. rewrite firstn_firstn. reflexivity. }
    rewrite E. intuition.
  - split; [|lia]. intros H. exfalso.
    assert (E : nth 11 (and_bytes a (cidr_mask 16 n)) 0%Z = 255%Z).
    { rewrite <- (firstn_skipn 12 (and_bytes a (cidr_mask 16 n))), H. reflexivity. }
    rewrite nth_and in E by (rewrite length_mask; exact Hl).
    pose proof (mask_nth 11 16 n ltac:(lia)) as Hm.
    assert (Hm0 : (0 <= nth 11 (cidr_mask 16 n) 0)%Z).
    { apply (bytes_mask 16 n). apply nth_In. rewrite length_mask. lia. }
    assert (Ha : (0 <= nth 11 a 0 <= 255)%Z) by (apply Hb; apply nth_In; lia).
    assert (E2 : Z.land (nth 11 (cidr_mask 16 n) 0%Z) 255 = 255%Z).
    { rewrite <- E at 1. rewrite Z.land_comm, <- Z.land_assoc, Z.land_diag. exact E. }
    rewrite land_255 in E2 by lia. lia.
Qed.

Lemma length_and_mask : forall a l n, length a = l -> length (and_bytes a (cidr_mask l n)) = l.
Proof. intros a l n H. rewrite length_and by (rewrite length_mask; exact H). exact H. Qed.

Lemma to4_4 : forall q, length q = 4 -> to4 q = Some q.
Proof. intros q H; unfold to4; rewrite H; reflexivity. Qed.
Lemma to4_mapped : forall q, length q = 4 -> to4 (v4_prefix ++ q) = Some q.
Proof. intros q H; unfold to4. rewrite app_length, H. change (length v4_prefix + 4) with 16. simpl. reflexivity. Qed.
Lemma to4_other : forall a, length a = 16 -> firstn 12 a <> v4_prefix -> to4 a = None.
Proof.
  intros a H Hn; unfold to4. rewrite H. change (16 =? 4) with false. change (16 =? 16) with true. cbn [andb].
  destruct (list_eqb (firstn 12 a) v4_prefix) eqn:E; [|reflexivity]. apply list_eqb_eq in E. contradiction.
Qed.
Lemma to4_prefix : forall a, length a = 16 -> firstn 12 a = v4_prefix -> to4 a = Some (skipn 12 a).
Proof. intros a H Hp; unfold to4. rewrite H, Hp, list_eqb_refl. reflexivity. Qed.

Lemma contains_v4 : forall q n, length q = 4 ->
  contains (mkNet (Some (and_bytes q (cidr_mask 4 n))) (cidr_mask 4 n)) (v4_prefix ++ q) = true.
Proof.
  intros q n H. unfold contains, network_number_and_mask. cbn [net_ip net_mask].
  rewrite (to4_4 (and_bytes q (cidr_mask 4 n))) by (apply length_and_mask; exact H).
  rewrite length_mask. change (4 =? 4) with true. cbv iota. rewrite length_and_mask by exact H.
  change (4 =? 4) with true. cbv iota. rewrite to4_mapped by exact H. rewrite length_and_mask by exact H. rewrite H.
  rewrite and_idem, list_eqb_refl. reflexivity.
Qed.

Lemma contains_v6 : forall a n, bytes a -> length a = 16 -> n <= 128 ->
  contains (mkNet (Some (and_bytes a (cidr_mask 16 n))) (cidr_mask 16 n)) a = true <-> (firstn 12 a <> v4_prefix \/ 96 <= n).
Proof.
  intros a n Hb Hl Hn. pose proof (mapped_net a n Hb Hl Hn) as Hm.
  assert (Hla := length_and_mask a 16 n Hl).
  unfold contains, network_number_and_mask. cbn [net_ip net_mask]. rewrite length_mask.
  change (16 =? 4) with false. change (16 =? 16) with true.
  destruct (list_eq_dec Z.eq_dec (firstn 12 a) v4_prefix) as [Hp|Hp].
  - rewrite (to4_prefix a Hl Hp). destruct (Nat.le_gt_cases 96 n) as [Hge|Hlt].
    + rewrite to4_prefix by (try exact Hla; apply Hm; auto). cbv iota.
      rewrite skipn_length, Hla. change (16 - 12 =? 4) with true. cbv iota.
      split; [intros _; right; exact Hge|intros _]. rewrite !skipn_length, Hla, Hl. change (16 - 12 =? 16 - 12) with true. cbn [andb].
      apply list_eqb_eq. replace n with (8 * 12 + (n - 96)) by lia. change 16 with (12 + 4). rewrite mask_split.
      rewrite <- (firstn_skipn 12 a) at 1. assert (H12 : length (firstn 12 a) = 12) by (rewrite firstn_length; lia).
      rewrite and_app by (rewrite repeat_length; exact H12).
      rewrite !skipn_app, (skipn_all2 (and_bytes _ _)), (skipn_all2 (repeat _ _)).
      2: rewrite repeat_length; lia.
      2: rewrite length_and by (rewrite repeat_length; exact H12); lia.
      rewrite repeat_length, length_and, H12 by (rewrite repeat_length; exact H12). simpl (12 - 12). rewrite !skipn_O. cbn [app].
      apply and_idem.
    + rewrite to4_other by (try exact Hla; intros Hx; apply Hm in Hx; lia). rewrite Hla. change (16 =? 16) with true. cbv iota. rewrite Hla.
      change (16 =? 4) with false. cbv iota beta. rewrite skipn_length, Hl, Hla.
      change (16 - 12 =? 16) with false. cbn [andb]. split; [discriminate|]. intros [H|H]; [contradiction|lia].
  - rewrite (to4_other a Hl Hp). rewrite to4_other by (try exact Hla; intros Hx; apply Hm in Hx; apply Hp, Hx).
    rewrite Hla. change (16 =? 16) with true. cbv iota. rewrite Hla. change (16 =? 4) with false. cbv iota beta. rewrite Hl, Hla.
    split; [intros _; left; exact Hp|intros _]. rewrite and_idem, list_eqb_refl. reflexivity.
Qed.
