(* The text of a block is shorter than the file, so the length of the text is enough fuel. *)

From Verif Require Import Base GoType SpecModel CollectModel DetModel CtyModel HclModel TagModel
  TagSpec StructModel StructScan StructParse StructSpec.
From Coq Require Import Lia.

Lemma substring_length : forall s a n, String.length (substring a n s) <= String.length s - a.
Proof.
  induction s as [|c s IH]; intros a n; [destruct a, n; cbn; lia|].
  destruct a as [|a]; cbn; [|apply IH].
  destruct n as [|n]; cbn; [lia|]. specialize (IH 0 n). lia.
Qed.
Lemma slice_shorter : forall s a b, s <> "" -> 1 <= a -> String.length (slice s a b) < String.length s.
Proof.
  intros s a b N A. unfold slice. pose proof (substring_length s a (b - a)) as H.
  assert (0 < String.length s) by (destruct s; [contradiction|cbn; lia]). lia.
Qed.

(* Tokens end after they start. *)
Lemma pscan_end : forall s st start pos ts, (pending st = true -> 1 <= pos) -> pscan st start pos s = Ok ts ->
  forall x, In x ts -> 1 <= snd (snd x).
Proof.
  induction s as [|c s IH]; intros st start pos ts P H x I.
  - destruct st; cbn in H; try discriminate; injection H as <-; try contradiction;
      destruct I as [<-|[]]; cbn; apply P; reflexivity.
  - cbn [pscan] in H. apply bindr_Ok in H as (p & Hp & H). apply bindr_Ok in H as (r & Hr & H).
    injection H as <-. apply in_app_or in I as [I|I].
    + unfold place in I. destruct (fst p) as [|t l]; [contradiction|].
      destruct (pending st) eqn:PS.
      * destruct I as [<-|I]; [cbn; apply P; reflexivity|]. apply in_map_iff in I as (y & <- & _). cbn. lia.
      * destruct (in_text st).
        -- destruct I as [<-|I]; [cbn; lia|]. apply in_map_iff in I as (y & <- & _). cbn. lia.
        -- apply in_map_iff in I as (y & <- & _). cbn. lia.
    + apply (IH _ _ _ _ (fun _ => le_n_S 0 pos (Nat.le_0_l pos)) Hr x I).
Qed.

Lemma parse_file_blocks : forall dat its b, parse_file dat = Ok its -> In b (file_blocks its) ->
  dat <> "" /\ 1 <= b_open b.
Proof.
  intros dat its b H I. unfold file_blocks in I. apply in_flat_map in I as ([|k ls o c body] & J & I); [contradiction|].
  destruct I as [<-|[]]. cbn [b_open].
  apply parse_file_inv in H as (ts & Hs & G & _).
  destruct (gitems_block _ _ G _ _ _ _ _ J) as (A & p1 & M & p2 & R & -> & _ & -> & _).
  split.
  - intros ->. cbn in Hs. injection Hs as Hs. destruct A; discriminate.
  - apply (pscan_end _ LNone 0 0 _ ltac:(discriminate) Hs (TLBrace, p1)). apply in_or_app. right. left. reflexivity.
Qed.
Lemma parse_file_empty : forall its, parse_file "" = Ok its -> its = [].
Proof. intros its H. cbn in H. congruence. Qed.

Section Fuel.
Variable E : env.
Variable depth : nat.
Variable type_string : gtype -> string.
Variable zero : gtype -> hval.
Variable assignable : gtype -> gtype -> bool.
Variable decode_attr : gtype -> cval -> result hval.
Variable hook : gtype -> option (string -> list string -> hval -> hval * result unit).

Section Same.
Variable dat : string.
Variable d1 d2 : decoder.
Definition same_on (b : hblock) : Prop := forall s ref ls t v,
  d1 s ref ls t v (block_bytes dat b) = d2 s ref ls t v (block_bytes dat b).

Lemma decode_block_same : forall limit s ref b, same_on b ->
  decode_block E zero hook d1 dat limit s ref b = decode_block E zero hook d2 dat limit s ref b.
Proof.
  intros limit s ref b H. unfold decode_block.
  destruct (class_object E zero ref (class_name s)) as [[t v]| |]; try reflexivity.
  destruct (too_many_labels limit b); [reflexivity|]. destruct (hook t); [reflexivity|]. rewrite H. reflexivity.
Qed.
Lemma map2_loop_same : forall kt et m bs acc ref, Forall same_on bs ->
  map2_loop E zero assignable hook d1 dat kt et m bs acc ref = map2_loop E zero assignable hook d2 dat kt et m bs acc ref.
Proof.
  intros kt et m. induction bs as [|b bs IH]; intros acc ref F; [reflexivity|].
  inversion F as [|? ? Hb F']; subst. cbn [map2_loop].
  destruct (map2_class m b); [|reflexivity]. rewrite (decode_block_same _ _ _ _ Hb).
  destruct (decode_block E zero hook d2 dat (Some 2) s ref b) as [ref' [[t v]| |]]; try reflexivity.
  destruct (stored E et t v) as [xt x]. destruct (_ && _); [|reflexivity]. apply IH. exact F'.
Qed.
Lemma map_loop_same : forall kt et m bs acc ref, Forall same_on bs ->
  map_loop E zero assignable hook d1 dat kt et m bs acc ref = map_loop E zero assignable hook d2 dat kt et m bs acc ref.
Proof.
  intros kt et m. induction bs as [|b bs IH]; intros acc ref F; [reflexivity|].
  inversion F as [|? ? Hb F']; subst. cbn [map_loop].
  destruct (b_labels b); [reflexivity|]. destruct (map_class m s); [|reflexivity].
  rewrite (decode_block_same _ _ _ _ Hb).
  destruct (decode_block E zero hook d2 dat (Some 1) s0 ref b) as [ref' [[t v]| |]]; try reflexivity.
  destruct (stored E et t v) as [xt x]. destruct (_ && _); [|reflexivity]. apply IH. exact F'.
Qed.
Lemma listmap_loop_same : forall kt et first bs acc ref, Forall same_on bs ->
  listmap_loop E zero assignable hook d1 dat kt et first bs acc ref
  = listmap_loop E zero assignable hook d2 dat kt et first bs acc ref.
Proof.
  intros kt et first. induction bs as [|b bs IH]; intros acc ref F; [reflexivity|].
  inversion F as [|? ? Hb F']; subst. cbn [listmap_loop]. rewrite (decode_block_same _ _ _ _ Hb).
  destruct (decode_block E zero hook d2 dat None first ref b) as [ref' [[t v]| |]]; try reflexivity.
  destruct (b_labels b); [reflexivity|].
  destruct (stored E et t v) as [xt x]. destruct (_ && _); [|reflexivity]. apply IH. exact F'.
Qed.
Lemma list_loop_same : forall et specs first bs k ref, Forall same_on bs ->
  list_loop E zero assignable hook d1 dat et specs first k bs ref
  = list_loop E zero assignable hook d2 dat et specs first k bs ref.
Proof.
  intros et specs first. induction bs as [|b bs IH]; intros k ref F; [reflexivity|].
  inversion F as [|? ? Hb F']; subst. cbn [list_loop]. rewrite (decode_block_same _ _ _ _ Hb).
  destruct (decode_block E zero hook d2 dat None (nth_or_first specs first k) ref b) as [ref' [[t v]| |]]; try reflexivity.
  destruct (stored E et t v) as [xt x]. destruct (assignable xt et); [|reflexivity]. rewrite IH by exact F'. reflexivity.
Qed.
Lemma block_value_same : forall t f v bs ref, Forall same_on bs ->
  block_value E depth zero assignable hook d1 dat t f v bs ref = block_value E depth zero assignable hook d2 dat t f v bs ref.
Proof.
  intros t f v bs ref F. unfold block_value. destruct bs as [|b bs]; [reflexivity|].
  destruct v as [[s|[|first l]|m|m]|]; try reflexivity.
  - inversion F; subst. rewrite decode_block_same by assumption. reflexivity.
  - destruct (under E (ftype f)); try reflexivity; [rewrite list_loop_same|rewrite listmap_loop_same]; auto.
  - destruct (under E (ftype f)); try reflexivity. rewrite map_loop_same; auto.
  - destruct (under E (ftype f)); try reflexivity. rewrite map2_loop_same; auto.
Qed.
Lemma run_same : forall t l1 l2 v ref,
  Forall2 (fun a b : action => fst a = fst b /\ forall v ref, snd a v ref = snd b v ref) l1 l2 ->
  run E depth assignable t l1 v ref = run E depth assignable t l2 v ref.
Proof.
  intros t l1 l2 v ref H. revert v ref. induction H as [|a b l1 l2 NF H IH]; intros v ref; [reflexivity|].
  destruct a as [n1 f1], b as [n2 f2], NF as (N & F). cbn in N, F. subst n2. cbn [run]. rewrite F.
  destruct (f2 v ref) as [ref' [[[xt x]|]| |]]; try reflexivity; [|apply IH].
  destruct (set_by_name E depth assignable t v n1 xt x); try reflexivity. apply IH.
Qed.
Lemma block_actions_same : forall t m p fs, Forall same_on (p_ori p) ->
  Forall2 (fun a b : action => fst a = fst b /\ forall v ref, snd a v ref = snd b v ref)
    (block_actions E depth zero assignable hook d1 dat t m p fs)
    (block_actions E depth zero assignable hook d2 dat t m p fs).
Proof.
  intros t m p fs F. unfold block_actions. induction fs as [|f fs IH]; cbn [map]; constructor; [|exact IH].
  split; [reflexivity|]. intros v ref. cbn [snd]. apply block_value_same.
  apply Forall_forall. intros b I. apply filter_In in I as (I & _).
  exact (proj1 (Forall_forall _ _) F b I).
Qed.
End Same.

Lemma split_attrs_open : forall dat nulls L attrs p b, split_attrs dat nulls L attrs = Ok p -> In b (p_ori p) ->
  1 <= b_open b /\ attrs <> [].
Proof.
  intros dat nulls L. induction attrs as [|a attrs IH]; intros p b H I.
  - injection H as <-. contradiction.
  - split; [|discriminate]. cbn [split_attrs] in H. apply bindr_Ok in H as (q & Hq & H).
    assert (IHq : In b (p_ori q) -> 1 <= b_open b) by (intro J; apply (IH q b Hq J)).
    destruct (grep nulls (a_name a)); [injection H as <-; auto|].
    destruct (tag_in (l_dec L) (a_name a)); [injection H as <-; auto|].
    destruct (tag_in (l_labels L) (a_name a)); [injection H as <-; auto|].
    destruct (tag_in (l_ori L) (a_name a)); [|injection H as <-; auto].
    apply bindr_Ok in H as (bs & Hb & H). injection H as <-. cbn [p_ori] in I.
    apply in_app_or in I as [I|I]; [|auto].
    unfold attr_blocks in Hb. destruct (negb _); [discriminate|]. destruct (Nat.ltb _ _); [discriminate|].
    injection Hb as <-. apply in_map_iff in I as (se & <- & _). cbn. lia.
Qed.

Lemma unmarshal_with_same : forall (d1 d2 : decoder) m ref labels t v dat,
  (forall s ref ls t v x, String.length x < String.length dat -> d1 s ref ls t v x = d2 s ref ls t v x) ->
  unmarshal_with E depth type_string zero assignable decode_attr hook d1 m ref labels t v dat
  = unmarshal_with E depth type_string zero assignable decode_attr hook d2 m ref labels t v dat.
Proof.
  intros d1 d2 m ref labels t v dat H. unfold unmarshal_with.
  destruct (under E t); try reflexivity.
  destruct (do its <- parse_file dat; do attrs <- file_attrs its; Ok (its, attrs)) as [[its attrs]| |] eqn:P; try reflexivity.
  apply bindr_Ok in P as (its' & HP & P). apply bindr_Ok in P as (attrs' & HA & P). injection P as -> ->.
  destruct (loop_fields _ _ _ _ _ _ _ _) as [L| |]; try reflexivity.
  destruct (do p <- split_body dat _ L attrs (file_blocks its);
            do raw <- gohcl_decode zero decode_attr (l_new L) (p_plain p) (p_rest p); Ok (p, raw)) as [[p raw]| |] eqn:S;
    try reflexivity.
  apply bindr_Ok in S as (p' & HS & S). apply bindr_Ok in S as (raw' & _ & S). injection S as -> ->.
  assert (B : Forall (same_on dat d1 d2) (p_ori p)).
  { apply Forall_forall. intros b I s0 ref0 ls t0 v0. apply H.
    unfold split_body in HS. apply bindr_Ok in HS as (q & Hq & HS). injection HS as <-.
    cbn [p_ori] in I. apply in_app_or in I as [I|I].
    - apply (split_attrs_open _ _ _ _ _ _ Hq) in I as (O & NA). apply slice_shorter; [|exact O].
      intros ->. apply parse_file_empty in HP. subst its. injection HA as <-. contradiction.
    - apply filter_In in I as (I & _).
      destruct (parse_file_blocks _ _ _ HP I) as (N & O). apply slice_shorter; assumption. }
  assert (Refl : forall l, Forall2 (fun a b : action => fst a = fst b /\ forall v ref, snd a v ref = snd b v ref) l l).
  { induction l; constructor; auto. }
  apply run_same. repeat apply Forall2_app; try apply Refl. apply block_actions_same. exact B.
Qed.

(* More fuel than the length of the text makes no difference. *)
Theorem unmarshal_fuel : forall n n' s ref labels t v dat, String.length dat < n -> String.length dat < n' ->
  unmarshal_tree E depth type_string zero assignable decode_attr hook n s ref labels t v dat
  = unmarshal_tree E depth type_string zero assignable decode_attr hook n' s ref labels t v dat.
Proof.
  induction n as [|n IH]; intros n' s ref labels t v dat H H'; [lia|].
  destruct n' as [|n']; [lia|]. cbn [unmarshal_tree]. apply unmarshal_with_same.
  intros s0 ref0 ls t0 v0 x Lx. apply IH; lia.
Qed.
End Fuel.
