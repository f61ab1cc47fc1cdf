(* Proofs about the texts of addresses. *)
From Verif Require Import Base IpModel IpSpec IpProofs7 CidrModel AddrModel AddrSpec.
From Coq Require Import ZifyBool ZifyNat ZifyN.
Ltac Zify.zify_post_hook ::= Z.div_mod_to_equations.
Local Open Scope Z_scope.

Lemma digit_char : forall d, 0 <= d <= 15 -> exists c, digit d = String c "" /\ digit16 c d /\ (d <= 9 -> digit10 c d) /\
  (c = "0"%char <-> d = 0) /\ ~ (65 <= byte_of c <= 90).
Proof.
  intros d H.
  assert (C : d = 0 \/ d = 1 \/ d = 2 \/ d = 3 \/ d = 4 \/ d = 5 \/ d = 6 \/ d = 7 \/ d = 8 \/ d = 9 \/ d = 10 \/ d = 11 \/ d = 12 \/ d = 13 \/ d = 14 \/ d = 15) by lia.
  repeat (destruct C as [C|C]); subst d; eexists; (split; [reflexivity|]);
    (split; [first [apply d16_dec; constructor; [lia|reflexivity]|apply d16_low; [lia|reflexivity]]|]);
    (split; [intro; first [lia|constructor; [lia|reflexivity]]|]);
    (split; [split; intro; first [reflexivity|discriminate|lia]|vm_compute; intros [? ?]; congruence]).
Qed.

(* Numerals digit by digit. *)
Section Numerals.
Variable base : Z.
Variable dig : ascii -> Z -> Prop.
Definition digs (d : Z) : Prop := exists c, digit d = String c "" /\ dig c d.
Lemma numeral_digit : forall d, digs d -> numeral base dig (digit d) d.
Proof. intros d (c & -> & H). constructor. exact H. Qed.
Lemma numeral_more : forall s n d, numeral base dig s n -> digs d -> numeral base dig (s +++ digit d) (n * base + d).
Proof. intros s n d H (c & -> & D). constructor; assumption. Qed.
End Numerals.

Lemma dec_text_decimal : forall x, 0 <= x <= 999 -> decimal (dec_text x) x.
Proof.
  intros x H. assert (D : forall d, 0 <= d <= 9 -> digs digit10 d).
  { intros d Hd. destruct (digit_char d ltac:(lia)) as (c & E & _ & D & _). exists c. split; [exact E|apply D; lia]. }
  unfold dec_text, decimal. destruct (100 <=? x) eqn:E1; destruct (10 <=? x) eqn:E2; try lia.
  - replace x with ((x / 100 * 10 + x / 10 mod 10) * 10 + x mod 10) at 4 by lia. rewrite <- append_assoc.
    apply numeral_more; [apply numeral_more; [apply numeral_digit|]|]; apply D; lia.
  - cbn [String.append]. replace x with (x / 10 mod 10 * 10 + x mod 10) at 3 by lia. apply numeral_more; [apply numeral_digit|]; apply D; lia.
  - cbn [String.append]. replace x with (x mod 10) at 2 by lia. apply numeral_digit. apply D. lia.
Qed.

Lemma hex_text_cases : forall x, 0 <= x <= 65535 ->
  exists d ds, 0 <= d <= 15 /\ Forall (fun e => 0 <= e <= 15) ds /\ hex_text x = digit d +++ fold_right (fun e s => digit e +++ s) "" ds /\
    x = fold_left (fun n e => n * 16 + e) ds d /\ (d = 0 -> ds = []).
Proof.
  intros x H. unfold hex_text.
  destruct (4096 <=? x) eqn:E1; destruct (256 <=? x) eqn:E2; destruct (16 <=? x) eqn:E3; try lia; cbn [String.append].
  - exists (x / 4096), [x / 256 mod 16; x / 16 mod 16; x mod 16]. cbn [fold_right fold_left]. rewrite append_nil_r. repeat split; try lia; try (repeat constructor; lia).
  - exists (x / 256 mod 16), [x / 16 mod 16; x mod 16]. cbn [fold_right fold_left]. rewrite append_nil_r. repeat split; try lia; try (repeat constructor; lia).
  - exists (x / 16 mod 16), [x mod 16]. cbn [fold_right fold_left]. rewrite append_nil_r. repeat split; try lia; try (repeat constructor; lia).
  - exists (x mod 16), []. cbn [fold_right fold_left]. rewrite append_nil_r. repeat split; try lia; try constructor.
Qed.

Lemma hex_fold : forall ds s n, Forall (fun e => 0 <= e <= 15) ds -> hexadecimal s n ->
  hexadecimal (s +++ fold_right (fun e s => digit e +++ s) "" ds) (fold_left (fun n e => n * 16 + e) ds n).
Proof.
  induction ds as [|d ds IH]; intros s n F H; cbn [fold_right fold_left]; [rewrite append_nil_r; exact H|].
  inversion F as [|? ? D F']; subst. rewrite <- append_assoc. apply IH; [exact F'|]. apply numeral_more; [exact H|].
  destruct (digit_char d D) as (c & E & K & _). exists c. split; assumption.
Qed.
Lemma hex_text_hexadecimal : forall x, 0 <= x <= 65535 -> hexadecimal (hex_text x) x.
Proof.
  intros x H. destruct (hex_text_cases x H) as (d & ds & D & F & -> & E & _). rewrite E. apply hex_fold; [exact F|].
  apply numeral_digit. destruct (digit_char d D) as (c & E' & K & _). exists c. split; assumption.
Qed.
Lemma no_capitals_fold : forall ds, Forall (fun e => 0 <= e <= 15) ds -> forall a c b,
  fold_right (fun e s => digit e +++ s) "" ds = a +++ String c b -> ~ (65 <= byte_of c <= 90).
Proof.
  induction 1 as [|d ds D F IH]; intros a c b E; cbn [fold_right] in E; [destruct a; discriminate E|].
  destruct (digit_char d D) as (x & Ex & _ & _ & _ & N). rewrite Ex in E. cbn [String.append] in E.
  destruct a as [|y a]; cbn [String.append] in E; injection E as -> E; [exact N|eapply IH; exact E].
Qed.
Lemma hex_text_tidy : forall x, 0 <= x <= 65535 -> tidy (hex_text x).
Proof.
  intros x H. destruct (hex_text_cases x H) as (d & ds & D & F & E & _ & Z0). rewrite E. split.
  - destruct (digit_char d D) as (c & Ec & _ & _ & Hz & _). rewrite Ec. destruct (Z.eq_dec d 0) as [->|N].
    + left. rewrite (Z0 eq_refl). cbn. f_equal. apply Hz. reflexivity.
    + right. intros r K. cbn [String.append] in K. injection K as K _. apply N, Hz. exact K.
  - apply (no_capitals_fold (d :: ds)). constructor; assumption.
Qed.

Definition sep_text (gs : list Z) : string := match gs with [] => "" | g :: r => hex_text g +++ after_run r end.
Definition small (gs : list Z) : Prop := Forall (fun g => 0 <= g <= 65535) gs.
Definition flat (gs : list Z) : list Z := flat_map (fun g => [g / 256; g mod 256]) gs.

Lemma sep_cons : forall g h r, sep_text (g :: h :: r) = hex_text g +++ ":" +++ sep_text (h :: r).
Proof. reflexivity. Qed.
Lemma sep_tidy : forall gs, small gs -> gs <> [] -> tidy_groups (sep_text gs) gs.
Proof.
  induction gs as [|g [|h r] IH]; intros F N; [congruence| |]; inversion F as [|? ? G F']; subst.
  - cbn [sep_text after_run]. rewrite append_nil_r. constructor; [apply hex_text_hexadecimal|apply hex_text_tidy]; exact G.
  - rewrite sep_cons. constructor; [apply hex_text_hexadecimal; exact G|apply hex_text_tidy; exact G|]. apply IH; [exact F'|discriminate].
Qed.
Lemma sep_some : forall gs, small gs -> some_groups (sep_text gs) gs.
Proof. intros [|g r] F; [constructor|]. apply sg_some. apply sep_tidy; [exact F|discriminate]. Qed.

(* What is tidy is a text of RFC 4291. *)
Lemma tidy_read : forall s gs, tidy_groups s gs -> small gs -> groups s (flat gs).
Proof.
  induction 1 as [s n H T|s n r gs H T G IH]; intro F; inversion F as [|? ? B F']; subst; cbn [flat flat_map app].
  - apply gr_one; [exact H|lia].
  - apply gr_cons; [exact H|lia|apply IH; exact F'].
Qed.
Lemma some_read : forall s gs, some_groups s gs -> small gs -> opt groups s (flat gs).
Proof. intros s gs H F. destruct H as [|s gs H]; constructor. apply tidy_read; assumption. Qed.
Lemma flat_length : forall gs, length (flat gs) = (2 * length gs)%nat.
Proof. induction gs as [|g r IH]; [reflexivity|]. cbn [flat flat_map app length] in *. unfold flat in IH. lia. Qed.
Lemma flat_app : forall a b, flat (a ++ b) = flat a ++ flat b.
Proof. intros. apply flat_map_app. Qed.
Lemma flat_zeros : forall k, flat (repeat 0 k) = repeat 0 (2 * k).
Proof. induction k as [|k IH]; [reflexivity|]. replace (2 * S k)%nat with (S (S (2 * k))) by lia. cbn [repeat flat flat_map app]. unfold flat in IH. rewrite IH. reflexivity. Qed.

Lemma short_read : forall gs s, small gs -> length gs = 8%nat -> short_text gs s -> v6_text s (flat gs).
Proof.
  intros gs s F L H. destruct H as [s T _|a k b sa sb E K A B _].
  - apply v6_full; [apply g4_groups; apply tidy_read; assumption|]. rewrite flat_length. lia.
  - unfold zeros_at in E. rewrite E in F, L. apply Forall_app in F as [Fa F]. apply Forall_app in F as [_ Fb].
    rewrite !app_length, repeat_length in L. rewrite E, !flat_app, flat_zeros.
    replace (2 * k)%nat with (16 - length (flat a) - length (flat b))%nat by (rewrite !flat_length; lia).
    apply v6_short; [apply some_read; assumption| |rewrite !flat_length; lia].
    pose proof (some_read _ _ B Fb) as O. destruct O as [|s bs O]; constructor. apply g4_groups. exact O.
Qed.

(* ----- the longest run ----- *)

Lemma zero_run_split : forall gs, exists b, gs = repeat 0 (zero_run gs) ++ b.
Proof.
  induction gs as [|g r (b & IH)]; [exists []; reflexivity|]. cbn [zero_run]. destruct (g =? 0) eqn:E; [|exists (g :: r); reflexivity].
  exists b. cbn [repeat app]. rewrite <- IH. f_equal. lia.
Qed.
Lemma zero_run_most : forall k b, (k <= zero_run (repeat 0%Z k ++ b))%nat.
Proof. induction k as [|k IH]; intro b; [lia|]. cbn [repeat app zero_run]. rewrite Z.eqb_refl. specialize (IH b). lia. Qed.

Definition best_so_far (full : list Z) (i : nat) (best : nat * nat) : Prop :=
  (best = (O, O) \/ exists a b, zeros_at full a (snd best) b /\ length a = fst best /\ (2 <= snd best)%nat /\ (fst best < i)%nat) /\
  forall a k b, zeros_at full a k b -> (length a < i)%nat -> (2 <= k)%nat -> (k <= snd best)%nat /\ (k = snd best -> (fst best <= length a)%nat).

Lemma app_length_inv : forall (a a' b b' : list Z), a ++ b = a' ++ b' -> length a = length a' -> a = a' /\ b = b'.
Proof.
  induction a as [|x a IH]; intros [|y a'] b b' E L; try discriminate L; [auto|].
  cbn in E, L. injection E as -> E. injection L as L. destruct (IH _ _ _ E L) as [-> ->]. auto.
Qed.

Lemma longest_run_best : forall gs pre best, best_so_far (pre ++ gs) (length pre) best ->
  best_so_far (pre ++ gs) (length (pre ++ gs)) (longest_run (length pre) gs best).
Proof.
  induction gs as [|g r IH]; intros pre best H; [rewrite app_nil_r in *; exact H|].
  cbn [longest_run]. replace (pre ++ g :: r) with ((pre ++ [g]) ++ r) by (rewrite <- app_assoc; reflexivity).
  replace (S (length pre)) with (length (pre ++ [g])) by (rewrite app_length; cbn; lia). apply IH.
  rewrite <- app_assoc. cbn [app]. set (l := zero_run (g :: r)). destruct H as [V M].
  assert (N : forall a k b, zeros_at (pre ++ g :: r) a k b -> length a = length pre -> (k <= l)%nat).
  { intros a k b Z L. unfold zeros_at in Z. destruct (app_length_inv _ _ _ _ Z (eq_sym L)) as [_ E]. unfold l. rewrite E. apply zero_run_most. }
  destruct ((2 <=? l)%nat && (snd best <? l)%nat) eqn:E.
  - split.
    + right. destruct (zero_run_split (g :: r)) as [b Eb]. exists pre, b. cbn [fst snd]. rewrite app_length. cbn [length]. split; [|lia]. unfold zeros_at. unfold l. rewrite <- Eb. reflexivity.
    + intros a k b Z L K. cbn [fst snd]. rewrite app_length in L. cbn in L. destruct (Nat.eq_dec (length a) (length pre)) as [E'|E'].
      * specialize (N _ _ _ Z E'). lia.
      * destruct (M a k b Z ltac:(lia) K). lia.
  - assert (V' : best = (O, O) \/ (fst best < length pre)%nat) by (destruct V as [V|(a0 & b0 & _ & _ & _ & V)]; [left|right]; exact V).
    split.
    + destruct V as [V|(a0 & b0 & Z0 & L0 & K0 & I0)]; [left; exact V|right]. exists a0, b0. rewrite app_length. cbn [length]. repeat split; try assumption. lia.
    + intros a k b Z L K. rewrite app_length in L. cbn in L. destruct (Nat.eq_dec (length a) (length pre)) as [E'|E'].
      * specialize (N _ _ _ Z E'). split; [lia|]. intro Ek. destruct V' as [->|V']; [cbn in *; lia|lia].
      * apply (M a k b Z); lia.
Qed.

(* ----- writing ----- *)

Lemma write_plain : forall gs i, write_groups (O, O) (S i) gs = after_run gs.
Proof. induction gs as [|g r IH]; intro i; [reflexivity|]. cbn [write_groups after_run fst snd Nat.ltb Nat.leb andb]. rewrite IH. reflexivity. Qed.
Lemma write_plain0 : forall gs, write_groups (O, O) 0 gs = sep_text gs.
Proof. intros [|g r]; [reflexivity|]. cbn [write_groups sep_text fst snd Nat.ltb Nat.leb andb]. rewrite write_plain. reflexivity. Qed.

Lemma skip_zeros : forall k (b : list Z), skipn k (repeat 0 k ++ b) = b.
Proof. induction k as [|k IH]; intro b; [reflexivity|]. cbn [repeat app skipn]. apply IH. Qed.
Lemma write_here : forall i k b, (0 < k)%nat -> write_groups (i, k) i (repeat 0 k ++ b) = "::" +++ sep_text b.
Proof.
  intros i [|k] b K; [lia|]. pose proof (skip_zeros (S k) b) as E. cbn [repeat app] in *. cbn [write_groups fst snd].
  rewrite Nat.eqb_refl. change (0 <? S k)%nat with true. cbn [andb]. rewrite E. reflexivity.
Qed.
Lemma write_before : forall a i k b, (0 < k)%nat ->
  write_groups (S i + length a, k)%nat (S i) (a ++ repeat 0 k ++ b) = after_run a +++ "::" +++ sep_text b.
Proof.
  induction a as [|g a IH]; intros i k b K; cbn [length app].
  - rewrite Nat.add_0_r. rewrite write_here by exact K. reflexivity.
  - cbn [write_groups fst snd after_run]. replace (S i =? S i + S (length a))%nat with false by lia. rewrite andb_false_r.
    change (0 <? S i)%nat with true. cbv iota. replace (S i + S (length a))%nat with (S (S i) + length a)%nat by lia. rewrite IH by exact K.
    rewrite !append_assoc. reflexivity.
Qed.
Lemma write_run : forall a k b, (0 < k)%nat ->
  write_groups (length a, k) 0 (a ++ repeat 0 k ++ b) = sep_text a +++ "::" +++ sep_text b.
Proof.
  intros [|g a] k b K; cbn [length app]; [rewrite write_here by exact K; reflexivity|].
  cbn [write_groups fst snd sep_text]. change (0 =? S (length a))%nat with false. rewrite andb_false_r. change (0 <? 0)%nat with false. cbv iota.
  change (S (length a)) with (1 + length a)%nat. rewrite write_before by exact K. cbn [String.append]. rewrite !append_assoc. reflexivity.
Qed.

Lemma run_in : forall gs a k b, zeros_at gs a k b -> (2 <= k)%nat -> (length a < length gs)%nat.
Proof. intros gs a k b -> K. rewrite !app_length, repeat_length. lia. Qed.

Lemma write_short : forall gs, small gs -> gs <> [] -> short_text gs (write_groups (longest_run 0 gs (O, O)) 0 gs).
Proof.
  intros gs F N. assert (B0 : best_so_far ([] ++ gs) 0 (O, O)) by (split; [left; reflexivity|intros; lia]).
  pose proof (longest_run_best gs [] (O, O) B0) as H. cbn [app length] in H. set (best := longest_run 0 gs (O, O)) in *. clearbody best.
  destruct H as [[->|(a & b & Z & L & K & _)] M].
  - rewrite write_plain0. apply st_full; [apply sep_tidy; assumption|]. intros a k b Z. destruct (le_lt_dec 2 k) as [K|K]; [|exact K].
    destruct (M a k b Z (run_in _ _ _ _ Z K) K) as [Q _]. cbn in Q. lia.
  - destruct best as [i k]. cbn [fst snd] in *. pose proof Z as E. unfold zeros_at in E. rewrite <- L.
    replace (write_groups (length a, k) 0 gs) with (sep_text a +++ "::" +++ sep_text b) by (rewrite E; symmetry; apply write_run; lia).
    assert (F' := F). rewrite E in F'. apply Forall_app in F' as [Fa F']. apply Forall_app in F' as [_ Fb].
    apply (st_run gs a k b); try assumption; [apply sep_some; exact Fa|apply sep_some; exact Fb|].
    intros a' k' b' Z'. destruct (le_lt_dec 2 k') as [K'|K']; [|lia]. destruct (M a' k' b' Z' (run_in _ _ _ _ Z' K') K') as [Q1 Q2]. split; [exact Q1|]. intro Q. specialize (Q2 Q). lia.
Qed.

Lemma pairs_flat : forall n ip, length ip = (2 * n)%nat -> bytes ip -> flat (pairs ip) = ip /\ small (pairs ip) /\ length (pairs ip) = n.
Proof.
  induction n as [|n IH]; intros ip L B; [destruct ip; [|discriminate L]; repeat split; constructor|].
  destruct ip as [|x [|y r]]; try (cbn in L; lia). cbn [pairs].
  destruct (IH r) as (E & S & L'); [cbn in L; lia|intros z I; apply B; right; right; exact I|].
  pose proof (B x (or_introl eq_refl)). pose proof (B y (or_intror (or_introl eq_refl))).
  split; [|split; [constructor; [lia|exact S]|cbn; lia]]. cbn [flat flat_map app]. unfold flat in E. rewrite E. f_equal; [lia|f_equal; lia].
Qed.

Lemma v6_string_short : forall ip, length ip = 16%nat -> bytes ip ->
  exists gs, groups_of gs ip /\ length gs = 8%nat /\ small gs /\ short_text gs (v6_string ip).
Proof.
  intros ip L B. destruct (pairs_flat 8 ip L B) as (E & S & N). exists (pairs ip). split; [symmetry; exact E|]. split; [exact N|]. split; [exact S|].
  apply write_short; [exact S|]. intro Q. rewrite Q in N. discriminate N.
Qed.
Lemma v4_string_quad : forall ip, length ip = 4%nat -> bytes ip -> quad (v4_string ip) ip.
Proof.
  intros [|a [|b [|c [|d [|e r]]]]] L B; try discriminate L. cbn [v4_string].
  assert (R : forall x, In x [a; b; c; d] -> 0 <= x <= 255) by exact B. cbn [In] in R.
  pose proof (R a ltac:(auto)). pose proof (R b ltac:(auto)). pose proof (R c ltac:(auto)). pose proof (R d ltac:(auto)).
  apply quad_intro; try (apply dec_text_decimal; lia); lia.
Qed.
