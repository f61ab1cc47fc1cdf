(* Proofs about parseIPv6, ParseIP and ParseCIDR of IpModel.v. *)

From Coq Require Import ZifyBool ZifyNat ZifyN.
From Verif Require Import Base IpModel IpSpec IpProofs.
Ltac Zify.zify_post_hook ::= Z.div_mod_to_equations.

(* A decimal number up to 255, read as hexadecimal, is small. *)
Lemma decimal_hex : forall t n, decimal t n -> (n <= 255)%Z -> exists h, hexadecimal t h /\ (h <= 65535)%Z.
Proof.
  intros t n H Hn. apply numeral_digits in H as [Hne H].
  assert (G : forall n0 u m, digits 10 digit10 n0 u m -> (0 <= n0)%Z -> (m <= 255)%Z -> forall h0, (0 <= h0)%Z ->
    (n0 = 0 -> h0 = 0)%Z -> (n0 <= 2 -> h0 <= 2)%Z -> (n0 <= 25 -> h0 <= 41)%Z -> (n0 <= 255 -> h0 <= 665)%Z ->
    exists h, digits 16 digit16 h0 u h /\ (h <= 665)%Z).
  { intros n0 u m Hd; induction Hd as [m|n0 c d u m Hc Hd IH]; intros H0 Hm h0 Hh A0 A1 A2 A3.
    - exists h0. split; [constructor|auto].
    - pose proof (digits_mono 10 digit10 dig10 ltac:(lia) dig10_spec digit10_pos _ _ _ Hd) as Hmono.
      pose proof (digit10_pos _ _ Hc) as Hp.
      assert (Hc9 : (d <= 9)%Z) by (inversion Hc; lia).
      destruct (IH ltac:(lia) Hm (h0 * 16 + d)%Z ltac:(lia)) as [h [Hh1 Hh2]]; try lia.
      exists h. split; [|exact Hh2]. econstructor; [apply d16_dec; exact Hc|exact Hh1]. }
  destruct (G _ _ _ H ltac:(lia) Hn 0%Z ltac:(lia) ltac:(lia) ltac:(lia) ltac:(lia) ltac:(lia)) as [h [Hh Hb]].
  exists h. split; [apply numeral_digits; split; assumption|lia].
Qed.

(* ------------------------------------------------------------------ one round *)

Definition buf (filled : list Z) : list Z := filled ++ zeros (16 - length filled).

Lemma zeros_S : forall n, 0 < n -> zeros n = 0%Z :: zeros (n - 1).
Proof. intros [|n] H; [lia|]. unfold zeros. simpl. replace (n - 0) with n by lia. reflexivity. Qed.

Lemma store_buf : forall filled b, length filled < 16 -> store (buf filled) (length filled) b = Ok (buf (filled ++ [b])).
Proof.
  intros filled b H. unfold buf. rewrite zeros_S by lia. rewrite store_app. rewrite app_length.
  rewrite <- app_assoc. cbn [length app]. replace (16 - (length filled + 1)) with (16 - length filled - 1) by lia. reflexivity.
Qed.

Lemma length_buf : forall filled, length filled <= 16 -> length (buf filled) = 16.
Proof. intros filled H. unfold buf, zeros. rewrite app_length, repeat_length. lia. Qed.

Lemma v6_loop_S : forall k s ip i ellipsis, v6_loop (S k) s ip i ellipsis =
    if negb (i <? 16) then Ok (Some (ip, s, i, ellipsis)) else
    let '(n, c, ok) := xtoi s in
    if negb ok || (65535 <? n)%Z then Ok None else
    do dot <- (if c <? String.length s then do ch <- idx s c; Ok (Ascii.eqb ch ".") else Ok false);
    if dot : bool then
      if match ellipsis with None => negb (i =? 16 - 4) | Some _ => false end then Ok None
      else if 16 <? i + 4 then Ok None
      else
        do ip4 <- parse_ipv4 s;
        match ip4 with
        | None => Ok None
        | Some ip4 =>
          do b0 <- load ip4 12; do ip1 <- store ip i b0;
          do b1 <- load ip4 13; do ip2 <- store ip1 (i + 1) b1;
          do b2 <- load ip4 14; do ip3 <- store ip2 (i + 2) b2;
          do b3 <- load ip4 15; do ip4 <- store ip3 (i + 3) b3;
          Ok (Some (ip4, "", i + 4, ellipsis))
        end
    else
      do ip1 <- store ip i (n / 256 mod 256)%Z;
      do ip2 <- store ip1 (i + 1) (n mod 256)%Z;
      do s1 <- from s c;
      if String.eqb s1 "" then Ok (Some (ip2, s1, i + 2, ellipsis)) else
      do c0 <- idx s1 0;
      if negb (Ascii.eqb c0 ":") || (String.length s1 =? 1) then Ok None else
      do s2 <- from s1 1;
      do c1 <- idx s2 0;
      if Ascii.eqb c1 ":" then
        match ellipsis with
        | Some _ => Ok None
        | None =>
          do s3 <- from s2 1;
          if String.eqb s3 "" then Ok (Some (ip2, s3, i + 2, Some (i + 2)))
          else v6_loop k s3 ip2 (i + 2) (Some (i + 2))
        end
      else v6_loop k s2 ip2 (i + 2) ellipsis.
Proof. reflexivity. Qed.

(* The round when the text starts with a number t followed by r. *)
Lemma v6_round : forall k t n r filled ell, hexadecimal t n -> (n <= 65535)%Z -> no_digit_head digit16 r ->
  length filled < 15 ->
  v6_loop (S k) (t +++ r) (buf filled) (length filled) ell =
  match r with
  | String "." _ =>
      if match ell with None => negb (length filled =? 12) | Some _ => false end then Ok None
      else if 16 <? length filled + 4 then Ok None
      else
        do ip4 <- parse_ipv4 (t +++ r);
        match ip4 with
        | None => Ok None
        | Some ip4 =>
          do b0 <- load ip4 12; do ip1 <- store (buf filled) (length filled) b0;
          do b1 <- load ip4 13; do ip2 <- store ip1 (length filled + 1) b1;
          do b2 <- load ip4 14; do ip3 <- store ip2 (length filled + 2) b2;
          do b3 <- load ip4 15; do ip4 <- store ip3 (length filled + 3) b3;
          Ok (Some (ip4, "", length filled + 4, ell))
        end
  | "" => Ok (Some (buf (filled ++ [n / 256; n mod 256]%Z), "", length filled + 2, ell))
  | String ":" "" => Ok None
  | String ":" (String c1 s3) =>
      let filled' := filled ++ [n / 256; n mod 256]%Z in
      if Ascii.eqb c1 ":" then
        match ell with
        | Some _ => Ok None
        | None =>
          if String.eqb s3 "" then Ok (Some (buf filled', "", length filled', Some (length filled')))
          else v6_loop k s3 (buf filled') (length filled') (Some (length filled'))
        end
      else v6_loop k (String c1 s3) (buf filled') (length filled') ell
  | _ => Ok None
  end.
Proof.
  intros k t n r filled ell Ht Hn Hr Hf. rewrite v6_loop_S.
  pose proof (hexadecimal_pos _ _ Ht) as Hpos.
  replace (length filled <? 16) with true by lia. cbn [negb].
  rewrite (xtoi_complete t n r Ht ltac:(unfold big; lia) Hr).
  replace (65535 <? n)%Z with false by lia. cbn [negb orb].
  assert (Hst : (do ip1 <- store (buf filled) (length filled) (n / 256 mod 256)%Z;
     store ip1 (length filled + 1) (n mod 256)%Z) = Ok (buf (filled ++ [n / 256; n mod 256]%Z))).
  { replace (n / 256 mod 256)%Z with (n / 256)%Z by lia. rewrite store_buf by lia. cbn [bindr].
    replace (length filled + 1) with (length (filled ++ [(n / 256)%Z])) by (rewrite app_length; reflexivity).
    rewrite store_buf by (rewrite app_length; simpl; lia). rewrite <- app_assoc. reflexivity. }
  assert (Hl2 : length filled + 2 = length (filled ++ [n / 256; n mod 256]%Z)) by (rewrite app_length; reflexivity).
  destruct r as [|c0 r].
  - rewrite append_nil_r. rewrite Nat.ltb_irrefl. cbn [bindr].
    destruct (store (buf filled) (length filled) (n / 256 mod 256)%Z) as [ip1| |]; cbn [bindr] in *; try discriminate Hst.
    rewrite Hst. cbn [bindr]. rewrite <- (append_nil_r t) at 1. rewrite from_append. cbn [bindr].
    reflexivity.
  - assert (Hlt : (String.length t <? String.length (t +++ String c0 r)) = true) by (rewrite length_append; simpl; lia).
    rewrite Hlt. rewrite idx_append. cbn [bindr].
    destruct (Ascii.eqb c0 ".") eqn:Edot.
    + apply Ascii.eqb_eq in Edot; subst c0. change (16 - 4) with 12. reflexivity.
    + destruct (store (buf filled) (length filled) (n / 256 mod 256)%Z) as [ip1| |]; cbn [bindr] in *; try discriminate Hst.
      rewrite Hst. cbn [bindr]. rewrite from_append. cbn [bindr].
      replace (String.eqb (String c0 r) "") with false by reflexivity. cbn [idx bindr].
      destruct (Ascii.eqb c0 ":") eqn:Ecol.
      * apply Ascii.eqb_eq in Ecol; subst c0. cbn [negb orb].
        destruct r as [|c1 s3]; [reflexivity|].
        replace (String.length (String ":" (String c1 s3)) =? 1) with false by reflexivity.
        replace (from (String ":" (String c1 s3)) 1) with (Ok (String c1 s3)) by reflexivity. cbn [bindr idx].
        rewrite Hl2.
        destruct (Ascii.eqb c1 ":") eqn:Ec1; [|reflexivity].
        destruct ell as [e|]; [reflexivity|].
        replace (from (String c1 s3) 1) with (Ok s3) by (destruct s3; reflexivity). cbn [bindr].
        destruct s3; reflexivity.
      * cbn [negb orb]. clear -Edot Ecol.
        destruct c0 as [[] [] [] [] [] [] [] []]; try reflexivity; cbv in Edot, Ecol; discriminate.
Qed.

Lemma v6_quad : forall k s q filled ell, quad s q -> length filled + 4 <= 16 ->
  (ell = None -> length filled = 12) ->
  v6_loop (S k) s (buf filled) (length filled) ell = Ok (Some (buf (filled ++ q), "", length filled + 4, ell)).
Proof.
  intros k s q filled ell Hq Hl He.
  assert (Hv : v4_text s (v4_prefix ++ q)) by (exists q; split; [exact Hq|reflexivity]).
  destruct (parse_ipv4_spec s) as [o [Ho Hspec]]. apply Hspec in Hv. subst o.
  apply quad_iff in Hq as [t [n [s' [qs [Hd [Hn [Ht [-> ->]]]]]]]].
  destruct (decimal_hex t n Hd Hn) as [h [Hh Hb]].
  inversion Ht as [|? t1 n1 s1 q1 Hd1 Hn1 Ht1]; subst. inversion Ht1 as [|? t2 n2 s2 q2 Hd2 Hn2 Ht2]; subst.
  inversion Ht2 as [|? t3 n3 s3 q3 Hd3 Hn3 Ht3]; subst. inversion Ht3; subst.
  set (r := "." +++ t1 +++ "." +++ t2 +++ "." +++ t3 +++ "") in *.
  rewrite (v6_round k t h r filled ell Hh Hb); [|apply no_digit_sep16; left; reflexivity|lia].
  change r with (String "." (t1 +++ "." +++ t2 +++ "." +++ t3 +++ "")) at 1. cbv iota.
  replace (match ell with None => negb (length filled =? 12) | Some _ => false end) with false
    by (destruct ell; [reflexivity|rewrite He by reflexivity; reflexivity]).
  replace (16 <? length filled + 4) with false by lia. fold r. rewrite Ho. cbn [bindr].
  change (load (v4_prefix ++ [n; n1; n2; n3]) 12) with (Ok n).
  change (load (v4_prefix ++ [n; n1; n2; n3]) 13) with (Ok n1).
  change (load (v4_prefix ++ [n; n1; n2; n3]) 14) with (Ok n2).
  change (load (v4_prefix ++ [n; n1; n2; n3]) 15) with (Ok n3). cbn [bindr].
  rewrite store_buf by lia. cbn [bindr].
  replace (length filled + 1) with (length (filled ++ [n])) by (rewrite app_length; reflexivity).
  rewrite store_buf by (rewrite app_length; simpl; lia). cbn [bindr]. rewrite <- app_assoc. simpl.
  replace (length filled + 2) with (length (filled ++ [n; n1])) by (rewrite app_length; reflexivity).
  rewrite store_buf by (rewrite app_length; simpl; lia). cbn [bindr]. rewrite <- app_assoc. simpl.
  replace (length filled + 3) with (length (filled ++ [n; n1; n2])) by (rewrite app_length; reflexivity).
  rewrite store_buf by (rewrite app_length; simpl; lia). cbn [bindr]. rewrite <- app_assoc. simpl. reflexivity.
Qed.

(* ------------------------------------------------------------------- soundness *)

Definition ends (o : option (list Z * string * nat * option nat)) : Prop :=
  match o with Some (_, s, _, _) => s = "" | None => False end.

Lemma groups_groups4 : forall s bs, groups s bs -> groups4 s bs.
Proof. intros; apply g4_groups; assumption. Qed.

Lemma v6_loop_some : forall k s filled e o, Nat.Even (length filled) -> length filled <= 16 -> 16 < length filled + 2 * k ->
  s <> "" -> v6_loop k s (buf filled) (length filled) (Some e) = o ->
  exists r, o = Ok r /\
   forall ip s' i' e', r = Some (ip, s', i', e') -> s' = "" ->
    exists bs, groups4 s bs /\ length filled + length bs <= 16 /\
      ip = buf (filled ++ bs) /\ i' = length (filled ++ bs) /\ e' = Some e.
Proof.
  intros k; induction k as [|k IH]; intros s filled e o Hev Hle Hk Hs Ho; [lia|].
  destruct (length filled <? 16) eqn:E16.
  2:{ rewrite v6_loop_S in Ho. rewrite E16 in Ho. cbn [negb] in Ho. exists (Some (buf filled, s, length filled, Some e)).
      split; [congruence|]. intros ip s' i' e' Hr Hs'. inversion Hr; congruence. }
  assert (Hf : length filled < 15) by (destruct Hev as [m Hm]; lia).
  destruct (xtoi s) as [[n c] ok] eqn:Ex.
  destruct ok.
  2:{ rewrite v6_loop_S, E16, Ex in Ho. cbn [negb orb] in Ho. exists None. split; [congruence|discriminate]. }
  destruct (65535 <? n)%Z eqn:En.
  { rewrite v6_loop_S, E16, Ex, En in Ho. cbn [negb orb] in Ho. exists None. split; [congruence|discriminate]. }
  apply xtoi_sound in Ex as [t [r [-> [-> [Ht Hr]]]]].
  rewrite (v6_round k t n r filled (Some e) Ht ltac:(lia) Hr Hf) in Ho.
  set (filled' := filled ++ [n / 256; n mod 256]%Z) in *.
  assert (Hl' : length filled' = length filled + 2) by (unfold filled'; rewrite app_length; reflexivity).
  destruct r as [|c0 r].
  { subst o. eexists; split; [reflexivity|]. intros ip s' i' e' Hr' _. inversion Hr'; subst.
    exists [n / 256; n mod 256]%Z. split; [apply g4_groups; rewrite append_nil_r; apply gr_one; [exact Ht|lia]|].
    split; [simpl; lia|]. split; [reflexivity|]. split; [exact (eq_sym Hl')|reflexivity]. }
  destruct (Ascii.eqb c0 ".") eqn:Edot.
  { apply Ascii.eqb_eq in Edot; subst c0.
    destruct (16 <? length filled + 4) eqn:E4; [exists None; split; [congruence|discriminate]|].
    destruct (parse_ipv4_spec (t +++ String "." r)) as [o4 [Ho4 Hspec]]. rewrite Ho4 in Ho. cbn [bindr] in Ho.
    destruct o4 as [ip4|]; [|exists None; split; [congruence|discriminate]].
    destruct (proj1 (Hspec ip4) eq_refl) as [q [Hq ->]].
    assert (Hrun := v6_quad k _ q filled (Some e) Hq ltac:(lia) ltac:(discriminate)).
    rewrite (v6_round k t n (String "." r) filled (Some e) Ht ltac:(lia) Hr Hf) in Hrun. cbv iota in Hrun.
    rewrite E4 in Hrun. rewrite Ho4 in Hrun. cbn [bindr] in Hrun. cbv iota in Hrun. rewrite Hrun in Ho. subst o.
    eexists; split; [reflexivity|]. intros ip s' i' e' Hr' _. inversion Hr'; subst.
    exists q. split; [apply g4_quad; exact Hq|]. 
    assert (Hq4 : length q = 4) by (inversion Hq; reflexivity).
    split; [lia|]. split; [reflexivity|]. split; [rewrite app_length; lia|reflexivity]. }
  destruct (Ascii.eqb c0 ":") eqn:Ecol.
  2:{ exists None. split; [|discriminate]. rewrite <- Ho. clear -Edot Ecol.
      destruct c0 as [[] [] [] [] [] [] [] []]; try reflexivity; cbv in Edot, Ecol; discriminate. }
  apply Ascii.eqb_eq in Ecol; subst c0. cbv iota in Ho.
  destruct r as [|c1 s3]; [exists None; split; [congruence|discriminate]|].
  cbv zeta in Ho. destruct (Ascii.eqb c1 ":") eqn:Ec1; [exists None; split; [congruence|discriminate]|].
  destruct (IH (String c1 s3) filled' e o ltac:(rewrite Hl'; destruct Hev as [m Hm]; exists (S m); lia) ltac:(lia) ltac:(lia) ltac:(discriminate) Ho)
    as [r [Hor Hspec]].
  exists r. split; [exact Hor|]. intros ip s' i' e' Hr' Hs'. destruct (Hspec ip s' i' e' Hr' Hs') as [bs [Hg [Hlen [Hip [Hi' He']]]]].
  exists ((n / 256) :: (n mod 256) :: bs)%Z.
  split; [apply (g4_cons t n (String c1 s3) bs Ht ltac:(lia) Hg)|]. split; [simpl; lia|].
  unfold filled' in *. rewrite <- app_assoc in Hip, Hi'. split; [exact Hip|]. split; [exact Hi'|exact He'].
Qed.

Lemma v6_loop_none : forall k s filled o, Nat.Even (length filled) -> length filled <= 16 -> 16 < length filled + 2 * k ->
  s <> "" -> v6_loop k s (buf filled) (length filled) None = o ->
  exists r, o = Ok r /\
   forall ip s' i' e', r = Some (ip, s', i', e') -> s' = "" ->
    (exists bs, groups4 s bs /\ length filled + length bs <= 16 /\
      ip = buf (filled ++ bs) /\ i' = length (filled ++ bs) /\ e' = None) \/
    (exists sl bl sr br, groups sl bl /\ opt groups4 sr br /\ s = (sl +++ "::" +++ sr) /\
      length filled + length bl + length br <= 16 /\
      ip = buf (filled ++ bl ++ br) /\ i' = length (filled ++ bl ++ br) /\ e' = Some (length (filled ++ bl))).
Proof.
  intros k; induction k as [|k IH]; intros s filled o Hev Hle Hk Hs Ho; [lia|].
  destruct (length filled <? 16) eqn:E16.
  2:{ rewrite v6_loop_S in Ho. rewrite E16 in Ho. cbn [negb] in Ho. exists (Some (buf filled, s, length filled, None)).
      split; [congruence|]. intros ip s' i' e' Hr Hs'. inversion Hr; congruence. }
  assert (Hf : length filled < 15) by (destruct Hev as [m Hm]; lia).
  destruct (xtoi s) as [[n c] ok] eqn:Ex.
  destruct ok.
  2:{ rewrite v6_loop_S, E16, Ex in Ho. cbn [negb orb] in Ho. exists None. split; [congruence|discriminate]. }
  destruct (65535 <? n)%Z eqn:En.
  { rewrite v6_loop_S, E16, Ex, En in Ho. cbn [negb orb] in Ho. exists None. split; [congruence|discriminate]. }
  apply xtoi_sound in Ex as [t [r [-> [-> [Ht Hr]]]]].
  rewrite (v6_round k t n r filled None Ht ltac:(lia) Hr Hf) in Ho.
  set (filled' := filled ++ [n / 256; n mod 256]%Z) in *.
  assert (Hl' : length filled' = length filled + 2) by (unfold filled'; rewrite app_length; reflexivity).
  assert (Hev' : Nat.Even (length filled')) by (rewrite Hl'; destruct Hev as [m Hm]; exists (S m); lia).
  destruct r as [|c0 r].
  { subst o. eexists; split; [reflexivity|]. intros ip s' i' e' Hr' _. inversion Hr'; subst. left.
    exists [n / 256; n mod 256]%Z. split; [apply g4_groups; rewrite append_nil_r; apply gr_one; [exact Ht|lia]|].
    split; [simpl; lia|]. split; [reflexivity|]. split; [exact (eq_sym Hl')|reflexivity]. }
  destruct (Ascii.eqb c0 ".") eqn:Edot.
  { apply Ascii.eqb_eq in Edot; subst c0. cbv iota in Ho.
    destruct (length filled =? 12) eqn:E12; cbn [negb] in Ho; [|exists None; split; [congruence|discriminate]].
    destruct (16 <? length filled + 4) eqn:E4; [exists None; split; [congruence|discriminate]|].
    destruct (parse_ipv4_spec (t +++ String "." r)) as [o4 [Ho4 Hspec]]. rewrite Ho4 in Ho. cbn [bindr] in Ho.
    destruct o4 as [ip4|]; [|exists None; split; [congruence|discriminate]].
    destruct (proj1 (Hspec ip4) eq_refl) as [q [Hq ->]].
    assert (Hrun := v6_quad k _ q filled None Hq ltac:(lia) ltac:(intros _; lia)).
    rewrite (v6_round k t n (String "." r) filled None Ht ltac:(lia) Hr Hf) in Hrun. cbv iota in Hrun.
    rewrite E4, E12 in Hrun. cbn [negb] in Hrun. rewrite Ho4 in Hrun. cbn [bindr] in Hrun. cbv iota in Hrun. rewrite Hrun in Ho. subst o.
    eexists; split; [reflexivity|]. intros ip s' i' e' Hr' _. inversion Hr'; subst. left.
    exists q. split; [apply g4_quad; exact Hq|].
    assert (Hq4 : length q = 4) by (inversion Hq; reflexivity).
    split; [lia|]. split; [reflexivity|]. split; [rewrite app_length; lia|reflexivity]. }
  destruct (Ascii.eqb c0 ":") eqn:Ecol.
  2:{ exists None. split; [|discriminate]. rewrite <- Ho. clear -Edot Ecol.
      destruct c0 as [[] [] [] [] [] [] [] []]; try reflexivity; cbv in Edot, Ecol; discriminate. }
  apply Ascii.eqb_eq in Ecol; subst c0. cbv iota in Ho.
  destruct r as [|c1 s3]; [exists None; split; [congruence|discriminate]|].
  cbv zeta in Ho. destruct (Ascii.eqb c1 ":") eqn:Ec1.
  - apply Ascii.eqb_eq in Ec1; subst c1. destruct (String.eqb s3 "") eqn:E3.
    + apply eqb_empty in E3; subst s3. subst o. eexists; split; [reflexivity|]. intros ip s' i' e' Hr' _. inversion Hr'; subst.
      right. exists t, [n / 256; n mod 256]%Z, "", []. rewrite !app_nil_r. fold filled'.
      split; [apply gr_one; [exact Ht|lia]|]. split; [constructor|]. split; [reflexivity|]. split; [simpl; lia|]. repeat split.
    + destruct (v6_loop_some k s3 filled' (length filled') o Hev' ltac:(lia) ltac:(lia)
        ltac:(intros ->; discriminate) Ho) as [r [Hor Hspec]].
      exists r. split; [exact Hor|]. intros ip s' i' e' Hr' Hs'. destruct (Hspec ip s' i' e' Hr' Hs') as [bs [Hg [Hlen [Hip [Hi' He']]]]].
      right. exists t, [n / 256; n mod 256]%Z, s3, bs.
      split; [apply gr_one; [exact Ht|lia]|]. split; [apply opt_some; exact Hg|]. split; [reflexivity|]. split; [simpl; lia|].
      unfold filled' in *. rewrite <- app_assoc in Hip, Hi'. repeat split; assumption.
  - destruct (IH (String c1 s3) filled' o Hev' ltac:(lia) ltac:(lia) ltac:(discriminate) Ho) as [r [Hor Hspec]].
    exists r. split; [exact Hor|]. intros ip s' i' e' Hr' Hs'.
    destruct (Hspec ip s' i' e' Hr' Hs') as [[bs [Hg [Hlen [Hip [Hi' He']]]]]|[sl [bl [sr [br [Hg [Hg2 [Es [Hlen [Hip [Hi' He']]]]]]]]]]].
    + left. exists ((n / 256) :: (n mod 256) :: bs)%Z.
      split; [apply (g4_cons t n (String c1 s3) bs Ht ltac:(lia) Hg)|]. split; [simpl; lia|].
      unfold filled' in *. rewrite <- app_assoc in Hip, Hi'. repeat split; assumption.
    + right. exists (t +++ ":" +++ sl), ((n / 256) :: (n mod 256) :: bl)%Z, sr, br.
      split; [apply (gr_cons t n sl bl Ht ltac:(lia) Hg)|]. split; [exact Hg2|].
      split; [rewrite Es, !append_assoc; reflexivity|]. split; [simpl; lia|].
      unfold filled' in *. rewrite <- app_assoc in Hip, Hi', He'. repeat split; assumption.
Qed.

(* ---------------------------------------------------------------- completeness *)

Lemma colon_head : forall r, no_digit_head digit16 (":" +++ r).
Proof. intros r. apply no_digit_sep16; right; reflexivity. Qed.

Lemma groups4_head : forall s bs, groups4 s bs -> exists c s', s = String c s' /\ Ascii.eqb c ":" = false.
Proof.
  assert (N : forall t n r, hexadecimal t n -> exists c s', (t +++ r) = String c s' /\ Ascii.eqb c ":" = false).
  { intros t n r H. apply numeral_digits in H as [Hne H]. inversion H as [|? c d u m Hd Hu]; subst; [congruence|].
    exists c, (u +++ r). split; [reflexivity|]. destruct (Ascii.eqb c ":") eqn:E; [|reflexivity].
    apply Ascii.eqb_eq in E; subst c. exfalso. apply (no_digit_sep16 ":" "" (or_intror eq_refl) d Hd). }
  assert (G : forall s bs, groups s bs -> exists c s', s = String c s' /\ Ascii.eqb c ":" = false).
  { intros s bs H; inversion H as [? n Hh Hn|? n r b Hh Hn Hg]; subst.
    - rewrite <- (append_nil_r s). eapply N; eassumption.
    - eapply N; eassumption. }
  intros s bs H; inversion H as [? ? Hg|? ? Hq|t n r b Hh Hn Hg]; subst.
  - eapply G; eassumption.
  - apply quad_iff in Hq as [t [n [s' [qs [Hd [Hn [_ [-> _]]]]]]]].
    destruct (decimal_hex t n Hd Hn) as [h [Hh _]]. eapply N; eassumption.
  - eapply N; eassumption.
Qed.

(* Any text of groups without :: , after an optional ellipsis. *)
Lemma v6_groups4 : forall s bs, groups4 s bs -> forall k filled ell, length filled + length bs <= 16 ->
  16 < length filled + 2 * k -> (ell = None -> length filled + length bs = 16) ->
  v6_loop k s (buf filled) (length filled) ell = Ok (Some (buf (filled ++ bs), "", length (filled ++ bs), ell)).
Proof.
  assert (One : forall t n k filled ell, hexadecimal t n -> (n <= 65535)%Z -> length filled + 2 <= 16 -> 16 < length filled + 2 * k ->
    v6_loop k t (buf filled) (length filled) ell =
    Ok (Some (buf (filled ++ [n / 256; n mod 256]%Z), "", length (filled ++ [n / 256; n mod 256]%Z), ell))).
  { intros t n k filled ell Ht Hn Hl Hk. destruct k as [|k]; [lia|].
    rewrite <- (append_nil_r t) at 1. rewrite (v6_round k t n "" filled ell Ht Hn I ltac:(lia)).
    rewrite app_length. reflexivity. }
  assert (Cons : forall t n r bs k filled ell, hexadecimal t n -> (n <= 65535)%Z -> groups4 r bs ->
    (forall k filled, length filled + length bs <= 16 -> 16 < length filled + 2 * k -> (ell = None -> length filled + length bs = 16) ->
       v6_loop k r (buf filled) (length filled) ell = Ok (Some (buf (filled ++ bs), "", length (filled ++ bs), ell))) ->
    length filled + (2 + length bs) <= 16 -> 16 < length filled + 2 * k -> (ell = None -> length filled + (2 + length bs) = 16) ->
    v6_loop k (t +++ ":" +++ r) (buf filled) (length filled) ell =
    Ok (Some (buf (filled ++ (n / 256 :: n mod 256 :: bs)%Z), "", length (filled ++ (n / 256 :: n mod 256 :: bs)%Z), ell))).
  { intros t n r bs k filled ell Ht Hn Hg IH Hl Hk He. destruct k as [|k]; [lia|].
    destruct (groups4_head _ _ Hg) as [c [s' [-> Hc]]].
    rewrite (v6_round k t n (":" +++ String c s') filled ell Ht Hn (colon_head _) ltac:(lia)).
    cbn [String.append]. cbv zeta iota. rewrite Hc.
    assert (Hl' : length (filled ++ [n / 256; n mod 256]%Z) = length filled + 2) by (rewrite app_length; reflexivity).
    rewrite IH by (rewrite ?Hl'; try lia; intros Hn'; specialize (He Hn'); lia).
    rewrite <- app_assoc. reflexivity. }
  intros s bs H; induction H as [s bs Hg|s bs Hq|t n r bs Ht Hn Hg IH].
  - induction Hg as [t n Ht Hn|t n r bs Ht Hn Hg IHg]; intros k filled ell Hl Hk He.
    + apply One; try assumption. 
    + apply Cons; try assumption; [apply g4_groups; exact Hg|]. intros k' f' Hl' Hk' He'. apply IHg; assumption.
  - intros k filled ell Hl Hk He. assert (Hq4 : length bs = 4) by (inversion Hq; reflexivity).
    destruct k as [|k]; [lia|]. rewrite (v6_quad k s bs filled ell Hq ltac:(lia)) by (intros E; specialize (He E); lia).
    rewrite app_length, Hq4. reflexivity.
  - intros k filled ell Hl Hk He. apply Cons; try assumption. intros k' f' Hl' Hk' He'. apply IH; assumption.
Qed.

(* Groups, then ::, then the rest. *)
Lemma v6_ellipsis : forall sl bl, groups sl bl -> forall sr br k filled, opt groups4 sr br ->
  length filled + length bl + length br < 16 -> 16 < length filled + 2 * k ->
  v6_loop k (sl +++ "::" +++ sr) (buf filled) (length filled) None =
  Ok (Some (buf (filled ++ bl ++ br), "", length (filled ++ bl ++ br), Some (length (filled ++ bl)))).
Proof.
  intros sl bl H; induction H as [t n Ht Hn|t n r bs Ht Hn Hg IH]; intros sr br k filled Hr Hl Hk.
  - destruct k as [|k]; [lia|].
    change (t +++ "::" +++ sr) with (t +++ (":" +++ (":" +++ sr))).
    rewrite (v6_round k t n (":" +++ ":" +++ sr) filled None Ht Hn (colon_head _) ltac:(simpl in Hl; lia)).
    cbn [String.append]. cbv zeta iota. rewrite Ascii.eqb_refl.
    assert (Hl' : length (filled ++ [n / 256; n mod 256]%Z) = length filled + 2) by (rewrite app_length; reflexivity).
    inversion Hr as [|? ? Hg]; subst.
    + simpl. rewrite ?app_nil_r. reflexivity.
    + destruct (groups4_head _ _ Hg) as [c [s' [-> Hc]]].
      replace (String.eqb (String c s') "") with false by reflexivity.
      simpl in Hl. rewrite (v6_groups4 _ _ Hg k _ _) by (rewrite ?Hl'; try lia; discriminate).
      rewrite <- app_assoc. reflexivity.
  - destruct k as [|k]; [lia|]. simpl in Hl.
    rewrite !append_assoc.
    assert (Hh : exists c s', (r +++ "::" +++ sr) = String c s' /\ Ascii.eqb c ":" = false).
    { destruct (groups4_head r bs (g4_groups _ _ Hg)) as [c [s' [-> Hc]]]. exists c, (s' +++ "::" +++ sr). split; [reflexivity|exact Hc]. }
    rewrite (v6_round k t n (":" +++ r +++ "::" +++ sr) filled None Ht Hn (colon_head _) ltac:(lia)).
    destruct Hh as [c [s' [Es Hc]]].
    assert (Hl' : length (filled ++ [n / 256; n mod 256]%Z) = length filled + 2) by (rewrite app_length; reflexivity).
    specialize (IH sr br k (filled ++ [n / 256; n mod 256]%Z) Hr ltac:(lia) ltac:(lia)).
    rewrite Es in *. cbn [String.append]. cbv zeta iota. rewrite Hc. rewrite IH. rewrite <- !app_assoc. reflexivity.
Qed.

(* ---------------------------------------------------------- after the loop *)

Lemma snoc_case : forall A (l : list A), l <> [] -> exists l' x, l = l' ++ [x].
Proof. intros A l H. destruct (exists_last H) as [l' [x E]]. exists l', x; exact E. Qed.

Lemma shift_loop_spec : forall b1 bl mid tl n, length mid = n -> 0 < n ->
  exists mid', length mid' = n /\
  shift_loop (length b1) (length bl) n (bl ++ b1 ++ mid ++ tl) = Ok (bl ++ mid' ++ b1 ++ tl).
Proof.
  intros b1; induction b1 as [|x b1 IH] using rev_ind; intros bl mid tl n Hm Hn.
  - exists mid. split; [exact Hm|reflexivity].
  - rewrite app_length. simpl. rewrite Nat.add_1_r. cbn [shift_loop].
    replace (length bl + length b1) with (length (bl ++ b1)) by apply app_length.
    replace (bl ++ (b1 ++ [x]) ++ mid ++ tl) with ((bl ++ b1) ++ x :: mid ++ tl) by (rewrite <- !app_assoc; reflexivity).
    rewrite load_app. cbn [bindr].
    destruct (snoc_case _ mid) as [m0 [y ->]]; [intros ->; simpl in Hm; lia|].
    rewrite app_length in Hm; simpl in Hm.
    replace (length (bl ++ b1) + n) with (length ((bl ++ b1) ++ x :: m0)) by (rewrite (app_length (bl ++ b1)); simpl; lia).
    replace ((bl ++ b1) ++ x :: (m0 ++ [y]) ++ tl) with (((bl ++ b1) ++ x :: m0) ++ y :: tl) by (rewrite <- !app_assoc; simpl; rewrite <- ?app_assoc; reflexivity).
    rewrite store_app. cbn [bindr].
    destruct (IH bl (x :: m0) (x :: tl) n ltac:(simpl; lia) Hn) as [mid' [Hm' Hs]].
    exists mid'. split; [exact Hm'|].
    replace (((bl ++ b1) ++ x :: m0) ++ x :: tl) with (bl ++ b1 ++ (x :: m0) ++ x :: tl) by (rewrite <- !app_assoc; reflexivity).
    rewrite Hs. rewrite <- !app_assoc. reflexivity.
Qed.

Lemma zero_loop_spec : forall n bl mid tl, length mid = n ->
  zero_loop n (length bl) (bl ++ mid ++ tl) = Ok (bl ++ zeros n ++ tl).
Proof.
  intros n; induction n as [|n IH]; intros bl mid tl Hm.
  - destruct mid; [reflexivity|discriminate].
  - cbn [zero_loop]. destruct (snoc_case _ mid) as [m0 [y ->]]; [intros ->; discriminate|].
    rewrite app_length in Hm; simpl in Hm.
    replace (length bl + n) with (length (bl ++ m0)) by (rewrite app_length; lia).
    replace (bl ++ (m0 ++ [y]) ++ tl) with ((bl ++ m0) ++ y :: tl) by (rewrite <- !app_assoc; reflexivity).
    rewrite store_app. cbn [bindr]. rewrite <- app_assoc.
    rewrite (IH bl m0 (0%Z :: tl)) by lia. f_equal. f_equal.
    unfold zeros. change (repeat 0%Z (S n)) with (0%Z :: repeat 0%Z n). rewrite repeat_cons. rewrite <- app_assoc. reflexivity.
Qed.

Lemma v6_finish_full : forall bs, length bs = 16 -> v6_finish (buf bs) "" 16 None = Ok (Some bs).
Proof.
  intros bs H. unfold v6_finish, buf. rewrite H. simpl. rewrite app_nil_r. reflexivity.
Qed.

Lemma v6_finish_short : forall bl br, length bl + length br < 16 ->
  v6_finish (buf (bl ++ br)) "" (length (bl ++ br)) (Some (length bl)) =
  Ok (Some (bl ++ repeat 0%Z (16 - length bl - length br) ++ br)).
Proof.
  intros bl br H. unfold v6_finish, buf. rewrite app_length. cbn [negb String.eqb].
  replace (length bl + length br <? 16) with true by lia. cbv zeta.
  set (n := 16 - (length bl + length br)).
  replace (length bl + length br - length bl) with (length br) by lia.
  rewrite <- app_assoc.
  destruct (shift_loop_spec br bl (zeros n) [] n ltac:(unfold zeros; apply repeat_length) ltac:(unfold n; lia)) as [mid' [Hm Hs]].
  rewrite app_nil_r in Hs. rewrite Hs. cbn [bindr]. rewrite app_nil_r.
  rewrite (zero_loop_spec n bl mid' br Hm). cbn [bindr].
  replace (16 - length bl - length br) with n by (unfold n; lia). reflexivity.
Qed.

Lemma v6_finish_sound : forall ip s i e r, v6_finish ip s i e = Ok (Some r) -> s = "" /\ (i < 16 <-> e <> None).
Proof.
  intros ip s i e r H. unfold v6_finish in H. destruct (String.eqb s "") eqn:Es; [|discriminate].
  apply eqb_empty in Es. split; [exact Es|]. cbn [negb] in H. destruct (i <? 16) eqn:Ei.
  - destruct e; [|discriminate]. split; [discriminate|intros _; lia].
  - destruct e; [discriminate|]. split; [lia|congruence].
Qed.

Lemma parse_ipv6_spec : forall s, exists o, parse_ipv6 s = Ok o /\ (forall x, o = Some x <-> v6_text s x).
Proof.
  intros s. unfold parse_ipv6.
  assert (Hfin : forall r, r = None \/ (exists bs, r = Some (buf bs, "", length bs, None)) \/
      (exists bl br, length (bl ++ br) <= 16 /\ r = Some (buf (bl ++ br), "", length (bl ++ br), Some (length bl))) \/
      (exists ip s' i e, s' <> "" /\ r = Some (ip, s', i, e)) ->
      exists o, match r with None => Ok None | Some (ip, s2, i, ellipsis) => v6_finish ip s2 i ellipsis end = Ok o).
  { intros r [->|[[bs ->]|[[bl [br [Hl ->]]]|[ip [s' [i [e [Hs' ->]]]]]]]].
    - eauto.
    - unfold v6_finish. cbn [negb String.eqb]. destruct (length bs <? 16); eauto.
    - destruct (length (bl ++ br) <? 16) eqn:E.
      + rewrite app_length in E. rewrite v6_finish_short by lia. eauto.
      + unfold v6_finish. cbn [negb String.eqb]. rewrite E. eauto.
    - unfold v6_finish. destruct (String.eqb s' "") eqn:E; [apply eqb_empty in E; contradiction|]. cbn [negb]. eauto. }
  destruct ((2 <=? String.length s) && match s with String ":" (String ":" _) => true | _ => false end)%bool eqn:Elead.
  - (* leading :: *)
    destruct s as [|c0 [|c1 s1]]; try discriminate.
    assert (Hc : c0 = ":"%char /\ c1 = ":"%char).
    { destruct c0 as [[] [] [] [] [] [] [] []]; try discriminate; destruct c1 as [[] [] [] [] [] [] [] []]; try discriminate. split; reflexivity. }
    destruct Hc as [-> ->]. cbn [String.length]. replace (2 <=? S (S (String.length s1))) with true by lia.
    cbn [idx bindr Ascii.eqb Bool.eqb andb]. replace (from (String ":" (String ":" s1)) 2) with (Ok s1) by (destruct s1; reflexivity).
    cbn [bindr].
    assert (Hfwd : forall x, v6_text (String ":" (String ":" s1)) x -> exists br, opt groups4 s1 br /\ length br < 16 /\
      x = repeat 0%Z (16 - length br) ++ br).
    { intros x Hx. inversion Hx as [? bs Hg Hl|sl sr bl br Hl Hr Hlen]; subst.
      - destruct (groups4_head _ _ Hg) as [c [s' [E Ec]]]. inversion E; subst. discriminate.
      - inversion Hl as [|? ? Hgl]; subst.
        + simpl in H. inversion H; subst. exists br. simpl in Hlen. simpl. split; [exact Hr|]. split; [exact Hlen|]. reflexivity.
        + destruct (groups4_head _ _ (g4_groups _ _ Hgl)) as [c [s' [E Ec]]]. subst. inversion H; subst. discriminate. }
    destruct (String.eqb s1 "") eqn:E1.
    + apply eqb_empty in E1; subst s1. eexists; split; [reflexivity|]. intros x; split; intros Hx.
      * inversion Hx; subst. apply (v6_short "" "" [] []); [constructor|constructor|simpl; lia].
      * apply Hfwd in Hx as [br [Hr [Hl ->]]]. inversion Hr as [|? ? Hg]; subst.
        -- reflexivity.
        -- destruct (groups4_head _ _ Hg) as [c [s' [E Ec]]]. discriminate.
    + assert (Hs1 : s1 <> "") by (intros ->; discriminate).
      destruct (v6_loop_some 9 s1 [] 0 _ ltac:(exists 0; reflexivity) ltac:(simpl; lia) ltac:(simpl; lia) Hs1 eq_refl) as [r [Er Hspec]].
      change (buf []) with (zeros 16) in Er. simpl (length []) in Er. rewrite Er. cbn [bindr].
      assert (Hex : exists o, match r with None => Ok None | Some (ip, s2, i, ellipsis) => v6_finish ip s2 i ellipsis end = Ok o).
      { apply Hfin. destruct r as [[[[ip s'] i'] e']|]; [|left; reflexivity].
        destruct (String.eqb s' "") eqn:Es'.
        - apply eqb_empty in Es'. subst s'. destruct (Hspec _ _ _ _ eq_refl eq_refl) as [bs [Hg [Hl [-> [-> ->]]]]].
          right; right; left. exists [], bs. split; [exact Hl|reflexivity].
        - right; right; right. do 4 eexists. split; [|reflexivity]. intros ->; discriminate. }
      destruct Hex as [o Ho]. exists o. split; [exact Ho|]. intros x; split; intros Hx.
      * subst o. destruct r as [[[[ip s'] i'] e']|]; [|discriminate].
        pose proof (v6_finish_sound _ _ _ _ _ Ho) as [-> Hie].
        destruct (Hspec _ _ _ _ eq_refl eq_refl) as [bs [Hg [Hl [-> [-> ->]]]]].
        simpl in Hl, Ho, Hie. assert (Hlt : length bs < 16) by (apply Hie; discriminate).
        pose proof (v6_finish_short [] bs Hlt) as Hf. simpl app in Hf. simpl (length []) in Hf. rewrite Hf in Ho. inversion Ho.
        apply (v6_short "" s1 [] bs); [constructor|apply opt_some; exact Hg|exact Hlt].
      * apply Hfwd in Hx as [br [Hr [Hl ->]]]. inversion Hr as [|? ? Hg]; subst; [discriminate|].
        pose proof (v6_groups4 _ _ Hg 9 [] (Some 0) ltac:(simpl; lia) ltac:(simpl; lia) ltac:(discriminate)) as Hrun.
        simpl app in Hrun. change (buf []) with (zeros 16) in Hrun. simpl (length []) in Hrun. rewrite Er in Hrun. inversion Hrun; subst.
        pose proof (v6_finish_short [] br Hl) as Hf. simpl app in Hf. simpl (length []) in Hf. rewrite Hf in Ho. inversion Ho.
        reflexivity.
  - (* no leading :: *)
    assert (Hl0 : (do lead <- (if 2 <=? String.length s then
                do c0 <- idx s 0; do c1 <- idx s 1; Ok (Ascii.eqb c0 ":" && Ascii.eqb c1 ":")
              else Ok false); Ok lead) = Ok false).
    { destruct s as [|c0 [|c1 s1]]; try reflexivity. cbn [String.length]. replace (2 <=? S (S (String.length s1))) with true by lia.
      cbn [idx bindr]. cbn [String.length] in Elead. replace (2 <=? S (S (String.length s1))) with true in Elead by lia.
      cbn [andb] in Elead.
      destruct (Ascii.eqb c0 ":") eqn:E0; [|reflexivity]. apply Ascii.eqb_eq in E0; subst c0.
      destruct (Ascii.eqb c1 ":") eqn:E1; [|reflexivity]. apply Ascii.eqb_eq in E1; subst c1. discriminate. }
    destruct (if 2 <=? String.length s then _ else _) as [lead| |]; cbn [bindr] in Hl0; try discriminate.
    inversion Hl0; subst lead. cbn [bindr andb]. clear Hl0.
    assert (Hbwd : forall x, v6_text s x -> s <> "").
    { intros x Hx ->. inversion Hx as [? bs Hg Hl|sl sr bl br Hl Hr Hlen]; subst.
      - destruct (groups4_head _ _ Hg) as [c [s' [E Ec]]]. discriminate.
      - destruct sl; discriminate. }
    destruct (String.eqb s "") eqn:Ese.
    { apply eqb_empty in Ese; subst s. exists None. split; [reflexivity|]. intros x; split; [discriminate|].
      intros Hx. exfalso; apply (Hbwd x Hx); reflexivity. }
    assert (Hne : s <> "") by (intros ->; discriminate).
    destruct (v6_loop_none 9 s [] _ ltac:(exists 0; reflexivity) ltac:(simpl; lia) ltac:(simpl; lia) Hne eq_refl) as [r [Er Hspec]].
    change (buf []) with (zeros 16) in Er. simpl (length []) in Er. rewrite Er. cbn [bindr].
    assert (Hex : exists o, match r with None => Ok None | Some (ip, s2, i, ellipsis) => v6_finish ip s2 i ellipsis end = Ok o).
    { apply Hfin. destruct r as [[[[ip s'] i'] e']|]; [|left; reflexivity].
      destruct (String.eqb s' "") eqn:Es'.
      - apply eqb_empty in Es'. subst s'.
        destruct (Hspec _ _ _ _ eq_refl eq_refl) as [[bs [Hg [Hl [-> [-> ->]]]]]|[sl [bl [sr [br [_ [_ [_ [Hl [-> [-> ->]]]]]]]]]]].
        + right; left. exists bs. reflexivity.
        + right; right; left. exists bl, br. split; [rewrite app_length; exact Hl|reflexivity].
      - right; right; right. do 4 eexists. split; [|reflexivity]. intros ->; discriminate. }
    destruct Hex as [o Ho]. exists o. split; [exact Ho|]. intros x; split; intros Hx.
    + subst o. destruct r as [[[[ip s'] i'] e']|]; [|discriminate].
      pose proof (v6_finish_sound _ _ _ _ _ Ho) as [-> Hie].
      destruct (Hspec _ _ _ _ eq_refl eq_refl) as [[bs [Hg [Hl [-> [-> ->]]]]]|[sl [bl [sr [br [Hg [Hg2 [Es [Hl [-> [-> ->]]]]]]]]]]].
      * cbn [app length] in Ho, Hie, Hl. assert (H16 : length bs = 16).
        { destruct (Nat.lt_ge_cases (length bs) 16) as [Hlt|Hge]; [exfalso; apply Hie in Hlt; congruence|lia]. }
        rewrite H16 in Ho. rewrite v6_finish_full in Ho by exact H16. inversion Ho; subst. apply v6_full; assumption.
      * cbn [app] in Ho, Hie. assert (Hlt : length (bl ++ br) < 16) by (apply Hie; discriminate). rewrite app_length in Hlt.
        rewrite v6_finish_short in Ho by exact Hlt. inversion Ho; subst.
        apply v6_short; [apply opt_some; exact Hg|exact Hg2|exact Hlt].
    + inversion Hx as [? bs Hg Hl|sl sr bl br Hgl Hr Hlen]; subst.
      * pose proof (v6_groups4 _ _ Hg 9 [] None ltac:(simpl; lia) ltac:(simpl; lia) ltac:(intros _; exact Hl)) as Hrun.
        simpl app in Hrun. change (buf []) with (zeros 16) in Hrun. simpl (length []) in Hrun. rewrite Er in Hrun. inversion Hrun; subst.
        rewrite Hl in Ho. rewrite v6_finish_full in Ho by exact Hl. inversion Ho; reflexivity.
      * inversion Hgl as [|? ? Hg]; subst.
        { exfalso. simpl in Elead. destruct sr; discriminate. }
        pose proof (v6_ellipsis _ _ Hg sr br 9 [] Hr ltac:(simpl; lia) ltac:(simpl; lia)) as Hrun.
        simpl app in Hrun. change (buf []) with (zeros 16) in Hrun. simpl (length []) in Hrun. rewrite Er in Hrun. inversion Hrun; subst.
        rewrite v6_finish_short in Ho by exact Hlen. inversion Ho; reflexivity.
Qed.
