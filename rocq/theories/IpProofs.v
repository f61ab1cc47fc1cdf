(* Proofs about the address parsers of IpModel.v against IpSpec.v. *)

From Coq Require Import ZifyBool ZifyNat ZifyN.
From Verif Require Import Base IpModel IpSpec.
Ltac Zify.zify_post_hook ::= Z.div_mod_to_equations.

(* ------------------------------------------------------- strings and buffers *)

Lemma from_append : forall t r, from (t +++ r) (String.length t) = Ok r.
Proof. intros t r; induction t as [|c t IH]; simpl; [destruct r; reflexivity|exact IH]. Qed.

Lemma upto_append : forall t r, upto (t +++ r) (String.length t) = Ok t.
Proof. intros t r; induction t as [|c t IH]; simpl; [destruct r; reflexivity|]. rewrite IH; reflexivity. Qed.

Lemma idx_append : forall t c r, idx (t +++ String c r) (String.length t) = Ok c.
Proof. intros t c r; induction t as [|x t IH]; simpl; [reflexivity|exact IH]. Qed.

Lemma store_app : forall a x b v, store (a ++ x :: b) (length a) v = Ok (a ++ v :: b).
Proof. intros a x b v; induction a as [|y a IH]; simpl; [reflexivity|]. rewrite IH; reflexivity. Qed.

Lemma load_app : forall a x b, load (a ++ x :: b) (length a) = Ok x.
Proof. intros a x b; induction a as [|y a IH]; simpl; [reflexivity|exact IH]. Qed.

Lemma eqb_empty : forall s, String.eqb s "" = true <-> s = "".
Proof. intros s; split; intros H; [destruct s; [reflexivity|discriminate]|subst; reflexivity]. Qed.

(* ------------------------------------------------------------------ numerals *)

(* The value of more digits after n0. *)
Inductive digits (base : Z) (digit : ascii -> Z -> Prop) : Z -> string -> Z -> Prop :=
| dg_nil : forall n, digits base digit n "" n
| dg_cons : forall n0 c d t n, digit c d -> digits base digit (n0 * base + d)%Z t n ->
    digits base digit n0 (String c t) n.

Lemma digits_snoc : forall base digit n0 t n c d, digits base digit n0 t n -> digit c d ->
  digits base digit n0 (t +++ String c "") (n * base + d)%Z.
Proof.
  intros base digit n0 t n c d H Hd; induction H as [n|n0 c' d' t n Hd' H IH]; simpl.
  - econstructor; [exact Hd|constructor].
  - econstructor; [exact Hd'|exact IH].
Qed.

Lemma digits_app : forall base digit t n0 n u m, digits base digit n0 t n -> digits base digit n u m ->
  digits base digit n0 (t +++ u) m.
Proof.
  intros base digit t n0 n u m H; induction H as [n|n0 c d t n Hd H IH]; simpl; intros Hu; [exact Hu|].
  econstructor; [exact Hd|auto].
Qed.

Lemma numeral_digits : forall base digit t n, numeral base digit t n <-> t <> "" /\ digits base digit 0 t n.
Proof.
  intros base digit t n; split.
  - intros H; induction H as [c d Hd|t n c d H [Hne IH] Hd].
    + split; [discriminate|]. econstructor; [exact Hd|]. simpl. constructor.
    + split; [destruct t; discriminate|]. apply digits_snoc; assumption.
  - intros [Hne H].
    assert (G : forall n0 u m, digits base digit n0 u m -> forall t0, numeral base digit t0 n0 ->
              numeral base digit (t0 +++ u) m).
    { intros n0 u m Hu; induction Hu as [m|n0 c d u m Hd Hu IH]; intros t0 Ht0.
      - rewrite append_nil_r; exact Ht0.
      - replace (t0 +++ String c u) with ((t0 +++ String c "") +++ u) by (rewrite append_assoc; reflexivity).
        apply IH. constructor; assumption. }
    inversion H as [m|n0 c d u m Hd Hu]; subst; [congruence|].
    simpl in Hu. apply (G _ _ _ Hu (String c "")). constructor; exact Hd.
Qed.

Section Numerals.
Variable base : Z.
Variable digit : ascii -> Z -> Prop.
Variable dig : ascii -> option Z.
Hypothesis Hbase : (1 <= base)%Z.
Hypothesis Hdig : forall c d, dig c = Some d <-> digit c d.
Hypothesis Hpos : forall c d, digit c d -> (0 <= d)%Z.

Fixpoint gloop (s : string) (n : Z) (i : nat) : option (Z * nat) :=
  match s with
  | String c s' =>
    match dig c with
    | Some d => let n' := (n * base + d)%Z in if (big <=? n')%Z then None else gloop s' n' (S i)
    | None => if i =? 0 then None else Some (n, i)
    end
  | "" => if i =? 0 then None else Some (n, i)
  end.

Definition no_digit_head (r : string) : Prop := match r with "" => True | String c _ => forall d, ~ digit c d end.

Lemma gloop_sound : forall s n0 i n c, gloop s n0 i = Some (n, c) ->
  exists t r, s = (t +++ r) /\ c = i + String.length t /\ digits base digit n0 t n /\ 0 < c /\ no_digit_head r.
Proof.
  intros s; induction s as [|ch s IH]; simpl; intros n0 i n c H.
  - destruct (i =? 0) eqn:Ei; [discriminate|]. inversion H; subst.
    exists "", "". simpl. repeat split; try constructor; lia.
  - destruct (dig ch) as [d|] eqn:Ed.
    + destruct (big <=? n0 * base + d)%Z; [discriminate|]. apply IH in H as [t [r [-> [Hc [Hd [H0 Hr]]]]]].
      exists (String ch t), r. simpl. repeat split; try assumption; try lia.
      econstructor; [apply Hdig; exact Ed|exact Hd].
    + destruct (i =? 0) eqn:Ei; [discriminate|]. inversion H; subst.
      exists "", (String ch s). simpl. repeat split; try constructor; try lia.
      intros d Hd. apply Hdig in Hd. congruence.
Qed.

Lemma digits_mono : forall n0 t n, digits base digit n0 t n -> (0 <= n0)%Z -> (n0 <= n)%Z.
Proof.
  intros n0 t n H; induction H as [n|n0 c d t n Hd H IH]; intros H0; [lia|].
  apply Hpos in Hd. assert (Hq : (0 <= n0 * (base - 1))%Z) by (apply Z.mul_nonneg_nonneg; lia). assert (Hm : (n0 <= n0 * base + d)%Z) by lia. assert (Hz : (0 <= n0 * base + d)%Z) by (eapply Z.le_trans; [exact H0|exact Hm]). specialize (IH Hz). eapply Z.le_trans; [exact Hm|exact IH].
Qed.

Lemma gloop_complete : forall n0 t n, digits base digit n0 t n -> forall r i, (0 <= n0)%Z -> (n < big)%Z ->
  no_digit_head r -> 0 < i + String.length t -> gloop (t +++ r) n0 i = Some (n, i + String.length t).
Proof.
  intros n0 t n H; induction H as [n|n0 c d t n Hd H IH]; intros r i H0 Hb Hr Hi; simpl in *.
  - destruct r as [|c r]; simpl.
    + destruct (i =? 0) eqn:Ei; [lia|]. do 2 f_equal; lia.
    + destruct (dig c) as [d|] eqn:Ed; [exfalso; apply (Hr d), Hdig; exact Ed|].
      destruct (i =? 0) eqn:Ei; [lia|]. do 2 f_equal; lia.
  - rewrite (proj2 (Hdig c d) Hd). pose proof (Hpos _ _ Hd).
    assert (Hq : (0 <= n0 * base)%Z) by (apply Z.mul_nonneg_nonneg; lia).
    assert (Hm : (n0 * base + d <= n)%Z) by (apply digits_mono in H; [exact H|lia]).
    destruct (big <=? n0 * base + d)%Z eqn:Eb; [lia|]. rewrite IH; [do 2 f_equal; lia|lia|exact Hb|exact Hr|lia].
Qed.
End Numerals.

Definition dig10 (c : ascii) : option Z := if in_range "0" "9" c then Some (byte_of c - 48)%Z else None.
Definition dig16 (c : ascii) : option Z :=
  if in_range "0" "9" c then Some (byte_of c - 48)%Z
  else if in_range "a" "f" c then Some (byte_of c - 97 + 10)%Z
  else if in_range "A" "F" c then Some (byte_of c - 65 + 10)%Z else None.

Lemma in_range_spec : forall lo hi c, in_range lo hi c = true <-> (byte_of lo <= byte_of c <= byte_of hi)%Z.
Proof. intros lo hi c; unfold in_range; lia. Qed.

Lemma b_0 : byte_of "0" = 48%Z. Proof. reflexivity. Qed.
Lemma b_9 : byte_of "9" = 57%Z. Proof. reflexivity. Qed.
Lemma b_a : byte_of "a" = 97%Z. Proof. reflexivity. Qed.
Lemma b_f : byte_of "f" = 102%Z. Proof. reflexivity. Qed.
Lemma b_A : byte_of "A" = 65%Z. Proof. reflexivity. Qed.
Lemma b_F : byte_of "F" = 70%Z. Proof. reflexivity. Qed.

Lemma dig10_spec : forall c d, dig10 c = Some d <-> digit10 c d.
Proof.
  intros c d; unfold dig10. destruct (in_range "0" "9" c) eqn:E; split; intros H.
  - inversion H; subst. apply in_range_spec in E. rewrite b_0, b_9 in E. constructor; lia.
  - inversion H; subst. f_equal; lia.
  - discriminate.
  - inversion H; subst. exfalso. assert (Ht : in_range "0" "9" c = true) by (apply in_range_spec; rewrite b_0, b_9; lia). congruence.
Qed.

Lemma dig16_spec : forall c d, dig16 c = Some d <-> digit16 c d.
Proof.
  intros c d; unfold dig16.
  destruct (in_range "0" "9" c) eqn:E1; [|destruct (in_range "a" "f" c) eqn:E2; [|destruct (in_range "A" "F" c) eqn:E3]].
  all: split; intros H.
  all: try (apply in_range_spec in E1; rewrite b_0, b_9 in E1).
  all: try (apply in_range_spec in E2; rewrite b_a, b_f in E2).
  all: try (apply in_range_spec in E3; rewrite b_A, b_F in E3).
  all: try discriminate.
  all: try (inversion H; subst; first [apply d16_dec; constructor; lia|apply d16_low; lia|apply d16_up; lia]).
  all: assert (Hn1 : ~ (48 <= byte_of c <= 57)%Z \/ (48 <= byte_of c <= 57)%Z) by lia.
  all: assert (Hr1 : in_range "0" "9" c = false -> ~ (48 <= byte_of c <= 57)%Z)
         by (intros G1 G2; rewrite <- b_0, <- b_9 in G2; apply in_range_spec in G2; congruence).
  all: assert (Hr2 : in_range "a" "f" c = false -> ~ (97 <= byte_of c <= 102)%Z)
         by (intros G1 G2; rewrite <- b_a, <- b_f in G2; apply in_range_spec in G2; congruence).
  all: assert (Hr3 : in_range "A" "F" c = false -> ~ (65 <= byte_of c <= 70)%Z)
         by (intros G1 G2; rewrite <- b_A, <- b_F in G2; apply in_range_spec in G2; congruence).
  all: try (assert (Hx1 := Hr1 E1)); try (assert (Hx2 := Hr2 E2)); try (assert (Hx3 := Hr3 E3)).
  all: inversion H as [? ? Hd|? ? Hd He|? ? Hd He]; subst; try (inversion Hd; subst); try (f_equal; lia); lia.
Qed.

Lemma digit10_pos : forall c d, digit10 c d -> (0 <= d)%Z.
Proof. intros c d H; inversion H; lia. Qed.
Lemma digit16_pos : forall c d, digit16 c d -> (0 <= d)%Z.
Proof. intros c d H; inversion H as [? ? H'| |]; subst; [inversion H'; lia|lia|lia]. Qed.

Lemma dtoi_loop_g : forall s n i, gloop 10 dig10 s n i =
  (let '(m, c, ok) := dtoi_loop s n i in if ok : bool then Some (m, c) else None).
Proof.
  intros s; induction s as [|c s IH]; intros n i; simpl.
  - destruct (i =? 0); reflexivity.
  - unfold dig10. destruct (in_range "0" "9" c); [|destruct (i =? 0); reflexivity].
    rewrite b_0. destruct (big <=? n * 10 + (byte_of c - 48))%Z; [reflexivity|apply IH].
Qed.

Lemma xtoi_loop_g : forall s n i, gloop 16 dig16 s n i =
  (let '(m, c, ok) := xtoi_loop s n i in if ok : bool then Some (m, c) else None).
Proof.
  intros s; induction s as [|c s IH]; intros n i; simpl.
  - destruct (i =? 0); reflexivity.
  - unfold dig16. rewrite b_0, b_a, b_A.
    destruct (in_range "0" "9" c); [|destruct (in_range "a" "f" c); [|destruct (in_range "A" "F" c)]];
      rewrite ?Z.add_assoc;
      try (match goal with |- context [if (big <=? ?x)%Z then _ else _] => destruct (big <=? x)%Z; [reflexivity|apply IH] end).
    destruct (i =? 0); reflexivity.
Qed.

(* What the two number readers do. *)
Lemma dtoi_sound : forall s n c, dtoi s = (n, c, true) ->
  exists t r, s = (t +++ r) /\ c = String.length t /\ decimal t n /\ no_digit_head digit10 r.
Proof.
  intros s n c H. pose proof (dtoi_loop_g s 0 0) as G. unfold dtoi in H. rewrite H in G.
  apply (gloop_sound 10 digit10 dig10 dig10_spec digit10_pos) in G as [t [r [E [Hc [Hd [H0 Hr]]]]]].
  exists t, r. simpl in Hc. split; [exact E|]. split; [exact Hc|]. split; [|exact Hr].
  apply numeral_digits. split; [|exact Hd]. intros ->. simpl in Hc; lia.
Qed.

Lemma dtoi_complete : forall t n r, decimal t n -> (n < big)%Z -> no_digit_head digit10 r ->
  dtoi (t +++ r) = (n, String.length t, true).
Proof.
  intros t n r H Hb Hr. apply numeral_digits in H as [Hne Hd].
  assert (G : gloop 10 dig10 (t +++ r) 0 0 = Some (n, 0 + String.length t)).
  { apply (gloop_complete 10 digit10 dig10 ltac:(lia) dig10_spec digit10_pos _ _ _ Hd); try assumption; [lia|].
    destruct t; [congruence|simpl; lia]. }
  rewrite dtoi_loop_g in G. unfold dtoi. destruct (dtoi_loop (t +++ r) 0 0) as [[m c] [|]]; [|discriminate].
  inversion G; subst. reflexivity.
Qed.

Lemma xtoi_sound : forall s n c, xtoi s = (n, c, true) ->
  exists t r, s = (t +++ r) /\ c = String.length t /\ hexadecimal t n /\ no_digit_head digit16 r.
Proof.
  intros s n c H. pose proof (xtoi_loop_g s 0 0) as G. unfold xtoi in H. rewrite H in G.
  apply (gloop_sound 16 digit16 dig16 dig16_spec digit16_pos) in G as [t [r [E [Hc [Hd [H0 Hr]]]]]].
  exists t, r. simpl in Hc. split; [exact E|]. split; [exact Hc|]. split; [|exact Hr].
  apply numeral_digits. split; [|exact Hd]. intros ->. simpl in Hc; lia.
Qed.

Lemma xtoi_complete : forall t n r, hexadecimal t n -> (n < big)%Z -> no_digit_head digit16 r ->
  xtoi (t +++ r) = (n, String.length t, true).
Proof.
  intros t n r H Hb Hr. apply numeral_digits in H as [Hne Hd].
  assert (G : gloop 16 dig16 (t +++ r) 0 0 = Some (n, 0 + String.length t)).
  { apply (gloop_complete 16 digit16 dig16 ltac:(lia) dig16_spec digit16_pos _ _ _ Hd); try assumption; [lia|].
    destruct t; [congruence|simpl; lia]. }
  rewrite xtoi_loop_g in G. unfold xtoi. destruct (xtoi_loop (t +++ r) 0 0) as [[m c] [|]]; [|discriminate].
  inversion G; subst. reflexivity.
Qed.

Lemma decimal_pos : forall t n, decimal t n -> (0 <= n)%Z.
Proof.
  intros t n H. apply numeral_digits in H as [_ H]. apply (digits_mono 10 digit10 dig10 ltac:(lia) dig10_spec digit10_pos) in H; [exact H|lia].
Qed.
Lemma hexadecimal_pos : forall t n, hexadecimal t n -> (0 <= n)%Z.
Proof.
  intros t n H. apply numeral_digits in H as [_ H]. apply (digits_mono 16 digit16 dig16 ltac:(lia) dig16_spec digit16_pos) in H; [exact H|lia].
Qed.

(* Separators are not digits. *)
Lemma no_digit_dot : forall r, no_digit_head digit10 (String "." r).
Proof. intros r d H; inversion H as [? ? Hd He]; subst. change (byte_of ".") with 46%Z in He. lia. Qed.
Lemma no_digit_sep16 : forall c r, c = "."%char \/ c = ":"%char -> no_digit_head digit16 (String c r).
Proof.
  intros c r Hc d H. assert (E : byte_of c = 46%Z \/ byte_of c = 58%Z) by (destruct Hc; subst; [left|right]; reflexivity).
  inversion H as [? ? Hd|? ? Hd He|? ? Hd He]; subst; [inversion Hd; subst; lia|lia|lia].
Qed.

(* No overflow: every intermediate value of the loops is below 16 * big. *)
Lemma dtoi_bound : forall s n i m c ok, (0 <= n < big)%Z -> dtoi_loop s n i = (m, c, ok) -> (0 <= m <= big)%Z.
Proof.
  intros s; induction s as [|ch s IH]; simpl; intros n i m c ok Hn H.
  - destruct (i =? 0); inversion H; unfold big in *; lia.
  - destruct (in_range "0" "9" ch) eqn:E.
    + apply in_range_spec in E. rewrite b_0, b_9 in *. destruct (big <=? _)%Z eqn:Eb; [inversion H; unfold big in *; lia|].
      apply IH in H; [exact H|lia].
    + destruct (i =? 0); inversion H; unfold big in *; lia.
Qed.

(* ---------------------------------------------------------------------- IPv4 *)

(* The text after the first number: dot, number, ... *)
Inductive quad_tail : nat -> string -> list Z -> Prop :=
| qt_nil : quad_tail 0 "" []
| qt_cons : forall k t n s qs, decimal t n -> (n <= 255)%Z -> quad_tail k s qs ->
    quad_tail (S k) ("." +++ t +++ s) (n :: qs).

Lemma quad_iff : forall s q, quad s q <-> exists t n s' qs, decimal t n /\ (n <= 255)%Z /\ quad_tail 3 s' qs /\
  s = (t +++ s') /\ q = n :: qs.
Proof.
  intros s q; split.
  - intros H; inversion H; subst.
    exists sa, a, ("." +++ sb +++ "." +++ sc +++ "." +++ sd), [b; c; d].
    assert (Hd : quad_tail 1 ("." +++ sd) [d]).
    { rewrite <- (append_nil_r sd). apply qt_cons; [assumption|assumption|constructor]. }
    split; [assumption|]. split; [assumption|]. split; [|split; reflexivity].
    apply qt_cons; [assumption|assumption|]. apply (qt_cons 1 sc c ("." +++ sd) [d]); assumption.
  - intros [t [n [s' [qs [Hd [Hn [Ht [-> ->]]]]]]]].
    inversion Ht as [|k t1 n1 s1 q1 Hd1 Hn1 Ht1]; subst. inversion Ht1 as [|k2 t2 n2 s2 q2 Hd2 Hn2 Ht2]; subst.
    inversion Ht2 as [|k3 t3 n3 s3 q3 Hd3 Hn3 Ht3]; subst. inversion Ht3; subst.
    rewrite append_nil_r. simpl. apply quad_intro; assumption.
Qed.

Lemma quad_tail_head : forall k s qs, quad_tail k s qs -> no_digit_head digit10 s.
Proof. intros k s qs H; destruct H; [exact I|apply no_digit_dot]. Qed.

Lemma v4_loop_S : forall k i s p, v4_loop (S k) i s p =
  if String.eqb s "" then Ok None else
    do s1 <- (if 0 <? i then do c <- idx s 0; if Ascii.eqb c "." then do s' <- from s 1; Ok (Some s') else Ok None
              else Ok (Some s));
    match s1 with
    | None => Ok None
    | Some s1 =>
      let '(n, c, ok) := dtoi s1 in
      if negb ok || (255 <? n)%Z then Ok None else
      do s2 <- from s1 c; do p' <- store p i n; v4_loop k (S i) s2 p'
    end.
Proof. reflexivity. Qed.

(* One round on text t followed by r, at a position where the buffer has room. *)
Lemma v4_round : forall k i s1 pre x rest, length pre = i ->
  (let '(n, c, ok) := dtoi s1 in
      if negb ok || (255 <? n)%Z then Ok None else
      do s2 <- from s1 c; do p' <- store (pre ++ x :: rest) i n; v4_loop k (S i) s2 p')
  = (let '(n, c, ok) := dtoi s1 in
      if negb ok || (255 <? n)%Z then Ok None else
      do s2 <- from s1 c; v4_loop k (S i) s2 ((pre ++ [n]) ++ rest)).
Proof.
  intros k i s1 pre x rest Hl. destruct (dtoi s1) as [[n c] ok]. destruct (negb ok || (255 <? n)%Z); [reflexivity|].
  destruct (from s1 c) as [s2| |]; simpl; try reflexivity.
  rewrite <- Hl, store_app. simpl. rewrite <- app_assoc. reflexivity.
Qed.

Lemma v4_loop_spec : forall k i s pre rest, 0 < i -> length pre = i -> length rest = k ->
  exists o, v4_loop k i s (pre ++ rest) = Ok o /\
    (forall x, o = Some x <-> exists qs, quad_tail k s qs /\ x = v4_prefix ++ pre ++ qs).
Proof.
  intros k; induction k as [|k IH]; intros i s pre rest Hi Hp Hr.
  - destruct rest; [|discriminate]. simpl. rewrite app_nil_r.
    destruct (String.eqb s "") eqn:Es; eexists; (split; [reflexivity|]); intros x; split; intros H.
    + inversion H; subst. apply eqb_empty in Es; subst. exists []. rewrite app_nil_r. split; [constructor|reflexivity].
    + destruct H as [qs [Hq ->]]. inversion Hq; subst. rewrite app_nil_r. reflexivity.
    + discriminate.
    + destruct H as [qs [Hq _]]. inversion Hq; subst. discriminate.
  - destruct rest as [|x rest]; [discriminate|]. injection Hr as Hr.
    rewrite v4_loop_S.
    destruct s as [|ch s].
    { eexists; split; [reflexivity|]. intros y; split; [discriminate|]. intros [qs [Hq _]]. inversion Hq; discriminate. }
    replace (String.eqb (String ch s) "") with false by reflexivity.
    replace (0 <? i) with true by lia. cbn [idx bindr].
    destruct (Ascii.eqb ch ".") eqn:Ec.
    2:{ eexists; split; [reflexivity|]. intros y; split; [discriminate|]. intros [qs [Hq _]]. inversion Hq; subst.
        rewrite Ascii.eqb_refl in Ec; discriminate. }
    apply Ascii.eqb_eq in Ec; subst ch.
    replace (from (String "." s) 1) with (Ok s) by (destruct s; reflexivity).
    cbn [bindr]. rewrite v4_round by exact Hp.
    destruct (dtoi s) as [[n c] ok] eqn:Ed.
    destruct ok.
    + destruct (255 <? n)%Z eqn:En; simpl negb; simpl orb; cbv iota.
      * eexists; split; [reflexivity|]. intros y; split; [discriminate|]. intros [qs [Hq _]]. exfalso.
        inversion Hq as [|? t m s2 q2 Hdt Hm Ht]; subst. rewrite (dtoi_complete t m s2 Hdt) in Ed;
          [|unfold big; lia|eapply quad_tail_head; eassumption]. inversion Ed; subst. lia.
      * pose proof (dtoi_sound _ _ _ Ed) as [t [r [-> [-> [Hdt Hnr]]]]].
        rewrite from_append. cbn [bindr].
        destruct (IH (S i) r (pre ++ [n]) rest ltac:(lia) ltac:(rewrite app_length; simpl; lia) Hr) as [o [Ho Hspec]].
        exists o. split; [exact Ho|]. intros y. rewrite Hspec. split.
        -- intros [qs [Hq ->]]. exists (n :: qs). split; [constructor; [exact Hdt|lia|exact Hq]|]. rewrite <- !app_assoc. reflexivity.
        -- intros [qs [Hq ->]]. inversion Hq as [|? t' m s2 q2 Hdt' Hm Ht E1]; subst.
           rewrite <- H in Ed. rewrite (dtoi_complete t' m s2 Hdt') in Ed;
             [|unfold big; lia|eapply quad_tail_head; eassumption].
           inversion Ed; subst. exists q2. split.
           ++ assert (Er : s2 = r).
              { assert (G : from (t' +++ s2) (String.length t') = from (t +++ r) (String.length t)) by (rewrite H, H2; reflexivity).
                rewrite !from_append in G. inversion G; reflexivity. }
              subst; exact Ht.
           ++ rewrite <- !app_assoc. reflexivity.
    + simpl. eexists; split; [reflexivity|]. intros y; split; [discriminate|]. intros [qs [Hq _]]. exfalso.
      inversion Hq as [|? t m s2 q2 Hdt Hm Ht]; subst. rewrite (dtoi_complete t m s2 Hdt) in Ed;
        [|unfold big; lia|eapply quad_tail_head; eassumption]. discriminate.
Qed.

Lemma parse_ipv4_spec : forall s, exists o, parse_ipv4 s = Ok o /\ (forall x, o = Some x <-> v4_text s x).
Proof.
  intros s. unfold parse_ipv4. rewrite v4_loop_S.
  assert (Hq : forall x, v4_text s x -> exists t n s' qs, decimal t n /\ (n <= 255)%Z /\ quad_tail 3 s' qs /\
    s = (t +++ s') /\ x = v4_prefix ++ n :: qs).
  { intros x [q [Hq ->]]. apply quad_iff in Hq as [t [n [s' [qs [H1 [H2 [H3 [H4 ->]]]]]]]].
    exists t, n, s', qs. tauto. }
  destruct (String.eqb s "") eqn:Es.
  { eexists; split; [reflexivity|]. intros x; split; [discriminate|]. intros H. apply Hq in H as [t [n [s' [qs [Hd [_ [_ [E _]]]]]]]].
    apply eqb_empty in Es. subst. apply numeral_digits in Hd as [Hne _]. destruct t; [congruence|discriminate]. }
  change (0 <? 0) with false. cbn [bindr].
  change [0; 0; 0; 0]%Z with ([] ++ 0 :: [0; 0; 0])%Z. rewrite v4_round by reflexivity.
  destruct (dtoi s) as [[n c] [|]] eqn:Ed.
  - destruct (255 <? n)%Z eqn:En; simpl negb; simpl orb; cbv iota.
    + eexists; split; [reflexivity|]. intros x; split; [discriminate|]. intros H. exfalso.
      apply Hq in H as [t [m [s' [qs [Hd [Hm [Ht [-> _]]]]]]]].
      rewrite (dtoi_complete t m s' Hd) in Ed; [|unfold big; lia|eapply quad_tail_head; eassumption]. inversion Ed; subst. lia.
    + pose proof (dtoi_sound _ _ _ Ed) as [t [r [Est [Ec [Hdt Hnr]]]]].
      rewrite Est, Ec, from_append. cbn [bindr].
      destruct (v4_loop_spec 3 1 r [n] [0; 0; 0]%Z ltac:(lia) eq_refl eq_refl) as [o [Ho Hspec]].
      exists o. split; [exact Ho|]. intros x. rewrite Hspec. split.
      * intros [qs [Ht ->]]. exists (n :: qs). split; [|reflexivity]. apply quad_iff. exists t, n, r, qs.
        repeat split; try assumption; try lia.
      * intros H. rewrite <- Est in H. apply Hq in H as [t' [m [s' [qs [Hd [Hm [Ht [E' ->]]]]]]]].
        rewrite E' in Ed. rewrite (dtoi_complete t' m s' Hd) in Ed; [|unfold big; lia|eapply quad_tail_head; eassumption].
        inversion Ed; subst m. exists qs. split; [|reflexivity].
        assert (Er : s' = r).
        { assert (G : from (t' +++ s') (String.length t') = from (t +++ r) (String.length t)) by (rewrite <- E', <- Est; congruence).
          rewrite !from_append in G. inversion G; reflexivity. }
        subst; exact Ht.
  - simpl. eexists; split; [reflexivity|]. intros x; split; [discriminate|]. intros H. exfalso.
    apply Hq in H as [t [m [s' [qs [Hd [Hm [Ht [-> _]]]]]]]].
    rewrite (dtoi_complete t m s' Hd) in Ed; [|unfold big; lia|eapply quad_tail_head; eassumption]. discriminate.
Qed.
