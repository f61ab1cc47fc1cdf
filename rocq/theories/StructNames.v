(* An injective type_string, for the examples: not a model of code of the repository. *)

From Verif Require Import Base GoType SpecModel CollectModel DetModel CtyModel HclModel TagModel StructModel StructSpec.

Fixpoint enc_string (s : string) : string :=
  match s with "" => "." | String c s' => String "'" (String c (enc_string s')) end.
Fixpoint enc_nat (n : nat) : string := match n with 0 => "." | S n' => String "'" (enc_nat n') end.
Fixpoint enc_strings (l : list string) : string :=
  match l with [] => ";" | s :: l' => "," +++ enc_string s +++ enc_strings l' end.
Fixpoint enc (t : gtype) : string :=
  "*" +++
  match t with
  | TNamed n => "N" +++ enc_nat n
  | TPtr u => "P" +++ enc u
  | TSlice u => "S" +++ enc u
  | TArray u => "A" +++ enc u
  | TMap k u => "M" +++ enc k +++ enc u
  | TStruct fs => "T" +++ (fix go fs := match fs with
                            | [] => ";"
                            | GField n a g u :: fs' => "," +++ enc_string n +++ (if a : bool then "t" else "f")
                                                       +++ enc_string g +++ enc u +++ go fs'
                            end) fs
  | TIface l => "I" +++ enc_strings l
  | TBasic s => "B" +++ enc_string s
  end.

Lemma enc_string_inj : forall s s' r r', enc_string s +++ r = enc_string s' +++ r' -> s = s' /\ r = r'.
Proof.
  induction s as [|c s IH]; intros [|c' s'] r r' H; cbn in H; try discriminate.
  - injection H as <-. auto.
  - injection H as <- H. apply IH in H as (-> & ->). auto.
Qed.
Lemma enc_nat_inj : forall n n' r r', enc_nat n +++ r = enc_nat n' +++ r' -> n = n' /\ r = r'.
Proof.
  induction n as [|n IH]; intros [|n'] r r' H; cbn in H; try discriminate.
  - injection H as <-. auto.
  - injection H as H. apply IH in H as (-> & ->). auto.
Qed.
Lemma enc_strings_inj : forall l l' r r', enc_strings l +++ r = enc_strings l' +++ r' -> l = l' /\ r = r'.
Proof.
  induction l as [|s l IH]; intros [|s' l'] r r' H; cbn in H; try discriminate.
  - injection H as <-. auto.
  - injection H as H. rewrite !append_assoc in H. apply enc_string_inj in H as (-> & H).
    apply IH in H as (-> & ->). auto.
Qed.
Lemma enc_prefix : forall t t' r r', enc t +++ r = enc t' +++ r' -> t = t' /\ r = r'.
Proof.
  fix IH 1. intros t t' r r' H. destruct t, t'; cbn in H; try discriminate; injection H as H.
  - apply enc_nat_inj in H as (-> & ->). split; reflexivity.
  - apply IH in H as (-> & ->). split; reflexivity.
  - apply IH in H as (-> & ->). split; reflexivity.
  - apply IH in H as (-> & ->). split; reflexivity.
  - rewrite !append_assoc in H. apply IH in H as (-> & H). apply IH in H as (-> & ->). split; reflexivity.
  - enough (fs = fs0 /\ r = r') as (-> & ->) by (split; reflexivity). revert fs0 H.
    induction fs as [|[n a g u] fs IHfs]; intros [|[n' a' g' u'] fs'] H; cbn in H; try discriminate.
    + injection H as <-. split; reflexivity.
    + injection H as H. rewrite !append_assoc in H. apply enc_string_inj in H as (-> & H).
      assert (a = a' /\ enc_string g +++ enc u +++ (fix go fs := match fs with
                            | [] => ";"
                            | GField n a g u :: fs' => "," +++ enc_string n +++ (if a : bool then "t" else "f")
                                                       +++ enc_string g +++ enc u +++ go fs'
                            end) fs +++ r = enc_string g' +++ enc u' +++ (fix go fs := match fs with
                            | [] => ";"
                            | GField n a g u :: fs' => "," +++ enc_string n +++ (if a : bool then "t" else "f")
                                                       +++ enc_string g +++ enc u +++ go fs'
                            end) fs' +++ r') as (-> & H')
        by (destruct a, a'; cbn in H; try discriminate; injection H as H; split; [reflexivity|exact H|reflexivity|exact H]).
      apply enc_string_inj in H' as (-> & H'). apply IH in H' as (-> & H').
      apply IHfs in H' as (-> & ->). split; reflexivity.
  - apply enc_strings_inj in H as (-> & ->). split; reflexivity.
  - apply enc_string_inj in H as (-> & ->). split; reflexivity.
Qed.
Lemma append_nil_r : forall s, s +++ "" = s.
Proof. induction s as [|c s IH]; [reflexivity|]. cbn. rewrite IH. reflexivity. Qed.
Lemma enc_inj : forall t t', enc t = enc t' -> t = t'.
Proof. intros t t' H. apply (enc_prefix t t' "" ""). rewrite H. reflexivity. Qed.

Lemma injective_distinct : forall E type_string, (forall t t', type_string t = type_string t' -> t = t') ->
  distinct_names E type_string.
Proof.
  intros E ts I s u u' [(S & ->)|(pt & P & ->)] [(S' & H)|(pt' & P' & H)]; apply I in H.
  - exact H.
  - subst pt'. destruct S as (fs & S). congruence.
  - subst pt. destruct S' as (fs & S). congruence.
  - subst pt'. congruence.
Qed.
Lemma enc_distinct : forall E, distinct_names E enc.
Proof. intro E. apply injective_distinct. exact enc_inj. Qed.
Lemma enc_user : forall E s, (forall r, s <> "*" +++ r) -> user_class E enc s.
Proof.
  intros E s H u [(_ & X)|(pt & _ & X)]; [destruct u|destruct pt]; cbn in X; exact (H _ X).
Qed.
