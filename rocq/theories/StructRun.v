(* Lemmas about the sequence of assignments that decoding makes. *)

From Verif Require Import Base GoType SpecModel CollectModel DetModel CtyModel HclModel TagModel
  TagSpec StructModel StructSpec.
From Coq Require Import Lia.

Section Run.
Variable E : env.
Variable depth : nat.
Variable assignable : gtype -> gtype -> bool.

Notation find_field := (find_field E depth).
Notation set_by_name := (set_by_name E depth assignable).
Notation run := (run E depth assignable).

Lemma path_eqb_spec : forall p q, path_eqb p q = true <-> p = q.
Proof.
  induction p as [|x p IH]; destruct q as [|y q]; cbn; try (split; congruence).
  rewrite andb_true_iff, IH, String.eqb_eq. split; [intros (-> & ->); reflexivity|intro H; injection H; auto].
Qed.

Lemma hget_hset : forall v p x q, hget (hset v p x) q = if path_eqb q p then x else hget v q.
Proof. reflexivity. Qed.
Lemma hget_hset_eq : forall v p x, hget (hset v p x) p = x.
Proof. intros v p x. rewrite hget_hset. rewrite (proj2 (path_eqb_spec p p) eq_refl). reflexivity. Qed.
Lemma hget_hset_ne : forall v p x q, q <> p -> hget (hset v p x) q = hget v q.
Proof.
  intros v p x q N. rewrite hget_hset. destruct (path_eqb q p) eqn:H; [|reflexivity].
  apply path_eqb_spec in H. contradiction.
Qed.

(* The path of a field ends with its name. *)
Lemma field_by_name_last : forall n name lv p t, field_by_name E n name lv = Some (p, t) ->
  exists p0, p = (p0 ++ [name])%list.
Proof.
  induction n as [|n IH]; intros name lv p t H; [discriminate|]. cbn [field_by_name] in H.
  destruct (level_matches name lv) as [|[p1 t1] [|? ?]] eqn:LM; [|injection H as -> ->|discriminate].
  - destruct (next_level E lv) eqn:NL; [discriminate|]. exact (IH _ _ _ _ H).
  - assert (I : In (p, t) (level_matches name lv)) by (rewrite LM; left; reflexivity).
    unfold level_matches in I. apply in_flat_map in I as ([q fs] & _ & I).
    apply in_flat_map in I as (f & _ & I). cbn [fst snd] in I.
    destruct (String.eqb_spec (fname f) name) as [<-|]; [|contradiction].
    destruct I as [I|[]]. injection I as <- _. exists q. reflexivity.
Qed.
Lemma find_field_inj : forall t a b p ta tb, find_field t a = Some (p, ta) -> find_field t b = Some (p, tb) -> a = b.
Proof.
  intros t a b p ta tb HA HB. apply field_by_name_last in HA as (x & ->).
  apply field_by_name_last in HB as (y & HB). apply app_inj_tail in HB as (_ & HB). exact HB.
Qed.

Lemma run_app : forall t a b v ref,
  run t (a ++ b) v ref =
  match run t a v ref with
  | (v', ref', Ok _) => run t b v' ref'
  | x => x
  end.
Proof.
  intros t a. induction a as [|[name f] a IH]; intros b v ref; cbn [run app StructModel.run]; [reflexivity|].
  destruct (f v ref) as [ref' [[[xt x]|]| |]]; try reflexivity; [|apply IH].
  destruct (set_by_name t v name xt x); try reflexivity. apply IH.
Qed.

(* Paths that no assignment names are left alone, also on failure. *)
Lemma run_frame : forall t q acts v ref,
  (forall name p ft, In name (map fst acts) -> find_field t name = Some (p, ft) -> q <> p) ->
  hget (fst (fst (run t acts v ref))) q = hget v q.
Proof.
  intros t q. induction acts as [|[name f] acts IH]; intros v ref N; [reflexivity|].
  cbn [run StructModel.run]. destruct (f v ref) as [ref' [[[xt x]|]| |]]; try reflexivity.
  - unfold set_by_name, StructModel.set_by_name.
    destruct (find_field t name) as [[p ft]|] eqn:F; [|reflexivity].
    destruct (assignable xt ft); [|reflexivity].
    rewrite IH; [|intros n' p' ft' I; apply (N n'); right; exact I].
    apply hget_hset_ne. apply (N name p ft); [left; reflexivity|exact F].
  - apply IH. intros n' p' ft' I. apply (N n'). right. exact I.
Qed.

Lemma run_Ok_app : forall t a b v ref v' ref' u, run t (a ++ b) v ref = (v', ref', Ok u) ->
  exists v1 ref1, run t a v ref = (v1, ref1, Ok tt) /\ run t b v1 ref1 = (v', ref', Ok u).
Proof.
  intros t a b v ref v' ref' u H. rewrite run_app in H.
  destruct (run t a v ref) as [[v1 ref1] [[]| |]]; try discriminate. exists v1, ref1. auto.
Qed.

(* What an assignment that is the only one for its name leaves behind. *)
Lemma run_value : forall t a name f b v ref v' ref' u p ft,
  run t (a ++ (name, f) :: b) v ref = (v', ref', Ok u) ->
  ~ In name (map fst b) -> find_field t name = Some (p, ft) ->
  exists v1 ref1 ref2, run t a v ref = (v1, ref1, Ok tt) /\
    ((f v1 ref1 = (ref2, Ok None) /\ hget v' p = hget v1 p)
     \/ exists xt x, f v1 ref1 = (ref2, Ok (Some (xt, x))) /\ assignable xt ft = true /\ hget v' p = x).
Proof.
  intros t a name f b v ref v' ref' u p ft H NB F.
  apply run_Ok_app in H as (v1 & ref1 & HA & H). exists v1, ref1. cbn [run StructModel.run] in H.
  assert (Fr : forall w r, hget (fst (fst (run t b w r))) p = hget w p).
  { intros w r. apply run_frame. intros n' p' ft' I F' ->. apply NB.
    rewrite (find_field_inj _ _ _ _ _ _ F F'). exact I. }
  destruct (f v1 ref1) as [ref2 [[[xt x]|]| |]] eqn:Ff; try discriminate.
  - unfold StructModel.set_by_name in H. rewrite F in H.
    destruct (assignable xt ft) eqn:As; [|discriminate].
    exists ref2. split; [exact HA|]. right. exists xt, x. split; [reflexivity|]. split; [exact As|].
    specialize (Fr (hset v1 p x) ref2). rewrite H in Fr. cbn [fst] in Fr. rewrite Fr. apply hget_hset_eq.
  - exists ref2. split; [exact HA|]. left. split; [reflexivity|].
    specialize (Fr v1 ref2). rewrite H in Fr. exact Fr.
Qed.
(* And the value before it, if it is the first for its name too. *)
Lemma run_before : forall t a name v ref v1 ref1 u p ft,
  run t a v ref = (v1, ref1, Ok u) -> ~ In name (map fst a) -> find_field t name = Some (p, ft) ->
  hget v1 p = hget v p.
Proof.
  intros t a name v ref v1 ref1 u p ft H N F.
  pose proof (run_frame t p a v ref) as Fr. rewrite H in Fr. apply Fr.
  intros n' p' ft' I F' ->. apply N. rewrite (find_field_inj _ _ _ _ _ _ F F'). exact I.
Qed.
(* A field that cannot be found makes an assignment panic. *)
Lemma run_found : forall t a name f b v ref v' ref' u,
  run t (a ++ (name, f) :: b) v ref = (v', ref', Ok u) ->
  (exists v1 ref1 ref2, run t a v ref = (v1, ref1, Ok tt) /\ f v1 ref1 = (ref2, Ok None))
  \/ exists p ft, find_field t name = Some (p, ft).
Proof.
  intros t a name f b v ref v' ref' u H.
  apply run_Ok_app in H as (v1 & ref1 & HA & H). cbn [run StructModel.run] in H.
  destruct (f v1 ref1) as [ref2 [[[xt x]|]| |]] eqn:Ff; try discriminate.
  - right. unfold StructModel.set_by_name in H.
    destruct (find_field t name) as [[p ft]|]; [|discriminate]. eauto.
  - left. exists v1, ref1, ref2. auto.
Qed.

End Run.
