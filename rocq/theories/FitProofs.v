(* Texts that fit a struct type are accepted. *)

From Verif Require Import Base GoType SpecModel DetModel CtyModel HclModel HclSpec HclDecode HclParse HclGrammar TagModel StructModel StructParse
  StructSpec StructFields StructRun StructRef StructResult StructBlock StructFuel StructSound MarshalSpec FitText FitSpec.
From Verif Require RoundProofs.
From Coq Require Import Lia.
Local Open Scope nat_scope.

(* ----- the attributes of the file ----- *)

Lemma file_attrs_ok : forall its, (forall k e q z, In (PAttr k e q z) its -> exists x, means e x) ->
  exists attrs, file_attrs its = Ok attrs.
Proof.
  induction its as [|[k e q z|k ls o c b] its IH]; intro H.
  - eexists. reflexivity.
  - destruct (H k e q z (or_introl eq_refl)) as (x & M). apply RoundProofs.means_cty in M.
    destruct IH as (r & IH); [intros k' e' q' z' I; apply (H k' e' q' z'); right; exact I|].
    cbn [file_attrs]. rewrite M. cbn [bindr]. rewrite IH. eexists. reflexivity.
  - cbn [file_attrs]. apply IH. intros k' e' q' z' I. apply (H k' e' q' z'). right. exact I.
Qed.

Section Fit.
Variable E : env.
Variable depth : nat.
Variable type_string : gtype -> string.
Variable zero : gtype -> hval.
Variable assignable : gtype -> gtype -> bool.
Variable decode_attr : gtype -> cval -> result hval.
Variable hook : gtype -> option (string -> list string -> hval -> hval * result unit).
Hypothesis distinct : distinct_names E type_string.

Notation unmarshal_spec := (unmarshal_spec E depth type_string zero assignable decode_attr hook).
Notation self := (self E depth type_string zero assignable decode_attr hook).
Notation find_field := (find_field E depth).
Notation ref_ok := (ref_ok E type_string zero).
Notation grows := (grows E type_string zero).
Notation loop_fields := (loop_fields E type_string zero).
Definition own_method (t : gtype) : Prop := hook t <> None.
Notation fits := (fits E depth assignable decode_attr own_method).
Notation field_fits := (field_fits E depth assignable decode_attr own_method).

(* ----- enough depth ----- *)

Lemma loop_fields_nests : forall n0 nulls fs m ref L, loop_fields n0 nulls fs m ref = Ok L ->
  forall n, nests E nulls n fs -> loop_fields n nulls fs m ref = Ok L.
Proof.
  induction n0 as [|n0 IHn]; intros nulls fs; [discriminate|].
  induction fs as [|f fs IH]; intros m ref L H n Hn; (destruct n as [|n]; [inversion Hn|]).
  - exact H.
  - rewrite loop_fields_cons in H |- *. apply bindr_Ok in H as (here & H1 & H). apply bindr_Ok in H as (rest & H2 & H).
    assert (Hn' : nests E nulls (S n) fs).
    { constructor. intros g t gs I C P U. inversion Hn as [? ? K]; subst. apply (K g t gs); [right; exact I|assumption..]. }
    assert (X : loop_field E type_string zero n nulls f m ref = Ok here).
    { unfold loop_field in H1 |- *. destruct (negb (is_exported (fname f))); [exact H1|].
      apply bindr_Ok in H1 as ([tag what] & T & H1). rewrite T. cbn [bindr].
      destruct (grep nulls tag) eqn:G; [exact H1|].
      destruct (String.eqb_spec (to_lower what) "label") as [|Lb]; [exact H1|].
      destruct (tag_skipped tag) eqn:Sk; [exact H1|].
      destruct (lookup (fname f) m); [exact H1|].
      destruct (String.eqb_spec tag "") as [->|]; [|exact H1].
      destruct (under E (elem_ptr E (ftype f))) as [| | | | |gs| |] eqn:U; try exact H1.
      apply (IHn _ _ _ _ _ H1). inversion Hn as [? ? K]; subst.
      apply (K f (elem_ptr E (ftype f)) gs); [left; reflexivity| |apply elem_points|exact U].
      apply grep_false in G.
      apply (class_inlined E nulls [] f what (elem_ptr E (ftype f)) T G Lb (fun x => x) (elem_points _ _)). exists gs. exact U. }
    rewrite X. cbn [bindr]. rewrite (IH _ _ _ H2 (S n) Hn'). exact H.
Qed.

(* ----- assignments that succeed ----- *)

Lemma run_ok : forall t (Inv : hrefmap -> Prop) acts v ref,
  (forall name (f : hval -> hrefmap -> hrefmap * result (option (gtype * hval))), In (name, f) acts ->
     forall w r, Inv r -> exists r' o, f w r = (r', Ok o) /\ Inv r' /\
       match o with
       | None => True
       | Some (xt, _) => exists p ft, find_field t name = Some (p, ft) /\ assignable xt ft = true
       end) ->
  Inv ref -> exists v' ref', run E depth assignable t acts v ref = (v', ref', Ok tt).
Proof.
  intros t Inv acts. induction acts as [|[name f] acts IH]; intros v ref H I0; [do 2 eexists; reflexivity|].
  cbn [run]. destruct (H name f (or_introl eq_refl) v ref I0) as (r' & o & -> & I1 & O).
  assert (H' : forall name f, In (name, f) acts -> forall w r, Inv r -> exists r' o, f w r = (r', Ok o) /\ Inv r' /\
       match o with
       | None => True
       | Some (xt, _) => exists p ft, find_field t name = Some (p, ft) /\ assignable xt ft = true
       end) by (intros n g J; apply H; right; exact J).
  destruct o as [[xt x]|]; [|exact (IH _ _ H' I1)].
  destruct O as (p & ft & F & A). unfold set_by_name. rewrite F, A. exact (IH _ _ H' I1).
Qed.

(* ----- one text ----- *)

Section One.
Variable dat : string.
(* shorter texts that fit are accepted *)
Hypothesis bare : bare_values dat.
Hypothesis IH : forall text, String.length text < String.length dat /\ bare_values text -> forall s t its labels v ref,
  spec_fields s = [] -> ref_ok ref -> parse_config text = Ok its -> fits t its ->
  exists v' ref', self s ref labels t v text = (v', ref', Ok tt).

Lemma linked_self : forall r, ref_ok r -> linked E type_string zero r r.
Proof. intros r O. split; [exact O|]. split; [exact O|]. intros s _. reflexivity. Qed.

Definition short (b : hblock) : Prop := String.length (block_bytes dat b) < String.length dat /\ bare_values (block_bytes dat b).

Lemma decode_block_ok : forall r b lb s u limit, ref_ok r -> names_type E type_string s u ->
  lookup s r = Some (RObj u (zero u)) -> block_text dat b lb -> short b -> fits u (snd lb) -> ~ own_method u ->
  match limit with Some n => List.length (fst lb) <= n | None => True end ->
  exists r' x, decode_block E zero hook self dat limit (plain_struct s) r b = (r', Ok (u, x)) /\ grows r r' /\ ref_ok r'.
Proof.
  intros r b lb s u limit O Nt Lk (T1 & T2) Sh Ft NM Lim.
  assert (Us : usable E type_string zero r r (plain_struct s)).
  { right. exists s, u. auto. }
  pose proof (decode_block_rel E type_string zero hook self dat limit (plain_struct s) r r b
    (self_rel E depth type_string zero assignable decode_attr hook distinct) (linked_self _ O) Us) as (_ & G1 & _ & O1 & _).
  assert (Hk : hook u = None) by (destruct (hook u) eqn:Hk; [exfalso; apply NM; unfold own_method; congruence|reflexivity]).
  assert (D : exists r' x, decode_block E zero hook self dat limit (plain_struct s) r b = (r', Ok (u, x))).
  { unfold decode_block, class_object. cbn [plain_struct class_name]. rewrite Lk.
    assert (US : exists fs, under E u = TStruct fs) by (inversion Ft; eauto). destruct US as (fs & US). rewrite US.
    assert (TM : too_many_labels limit b = false).
    { unfold too_many_labels. destruct limit as [n|]; [|reflexivity]. rewrite T1. apply Nat.ltb_ge. exact Lim. }
    rewrite TM, Hk.
    destruct (IH _ Sh (plain_struct s) u (snd lb) (b_labels b) (clone_value zero u (zero u)) r eq_refl O T2 Ft) as (x & r' & ->).
    eauto. }
  destruct D as (r' & x & D). rewrite D in G1, O1. cbn [fst] in G1, O1. eauto.
Qed.

Lemma held_class : forall et u xt, held E et u xt -> elem_class E et = Registered u.
Proof. intros et u xt [et' (fs & U)|et' u' U _]; unfold elem_class; rewrite U; reflexivity. Qed.
Lemma held_stored : forall et u xt, held E et u xt -> forall v, fst (stored E et u v) = xt.
Proof.
  intros et u xt [et' (fs & U)|et' u' U _] v; unfold stored, by_pointer; rewrite U; reflexivity.
Qed.

Section Elements.
Variables (u : gtype) (s : string).
Hypothesis NM : ~ own_method u.
Hypothesis Nt : names_type E type_string s u.
Definition known (r : hrefmap) : Prop := ref_ok r /\ lookup s r = Some (RObj u (zero u)).

Lemma known_block : forall r b lb limit, known r -> block_text dat b lb -> short b -> fits u (snd lb) ->
  match limit with Some n => List.length (fst lb) <= n | None => True end ->
  exists r' x, decode_block E zero hook self dat limit (plain_struct s) r b = (r', Ok (u, x)) /\ known r'.
Proof.
  intros r b lb limit (O & Lk) T Sh Ft Lim.
  destruct (decode_block_ok r b lb s u limit O Nt Lk T Sh Ft NM Lim) as (r' & x & D & (_ & G) & O').
  exists r', x. split; [exact D|]. split; [exact O'|exact (G s u Nt Lk)].
Qed.

Variables (et xt : gtype).
Hypothesis Hd : held E et u xt.
Hypothesis As : assignable xt et = true.

Lemma list_loop_ok : forall bs lbs, Forall2 (block_text dat) bs lbs -> Forall short bs ->
  (forall lb, In lb lbs -> fits u (snd lb)) -> forall k r, known r ->
  exists r' l, list_loop E zero assignable hook self dat et [plain_struct s] (plain_struct s) k bs r = (r', Ok l).
Proof.
  induction 1 as [|b lb bs lbs T F2 IHl]; intros Sh Ft k r K; [do 2 eexists; reflexivity|].
  inversion Sh as [|? ? S1 S2]; subst. cbn [list_loop].
  replace (nth_or_first [plain_struct s] (plain_struct s) k) with (plain_struct s) by (destruct k as [|[|k]]; reflexivity).
  destruct (known_block r b lb None K T S1 (Ft lb (or_introl eq_refl)) I) as (r' & x & -> & K').
  pose proof (held_stored _ _ _ Hd x) as Hs. destruct (stored E et u x) as [xt' y]. cbn in Hs. subst xt'. rewrite As.
  destruct (IHl S2 (fun lb' I => Ft lb' (or_intror I)) (S k) r' K') as (r2 & l & ->). eauto.
Qed.

Variable kt : gtype.
Lemma listmap_loop_ok : assignable string_type kt = true -> forall bs lbs, Forall2 (block_text dat) bs lbs -> Forall short bs ->
  (forall lb, In lb lbs -> fst lb <> [] /\ fits u (snd lb)) -> forall acc r, known r ->
  exists r' l, listmap_loop E zero assignable hook self dat kt et (plain_struct s) bs acc r = (r', Ok l).
Proof.
  intro Ak. induction 1 as [|b lb bs lbs T F2 IHl]; intros Sh Ft acc r K; [do 2 eexists; reflexivity|].
  inversion Sh as [|? ? S1 S2]; subst. cbn [listmap_loop].
  destruct (Ft lb (or_introl eq_refl)) as (Ls & Ft1).
  destruct (known_block r b lb None K T S1 Ft1 I) as (r' & x & -> & K').
  destruct T as (T & _). rewrite T. destruct (fst lb) as [|key ls]; [contradiction|].
  pose proof (held_stored _ _ _ Hd x) as Hs. destruct (stored E et u x) as [xt' y]. cbn in Hs. subst xt'. rewrite As, Ak.
  exact (IHl S2 (fun lb' I => Ft lb' (or_intror I)) _ r' K').
Qed.

Lemma map2_loop_ok : assignable pair_type kt = true -> forall bs lbs, Forall2 (block_text dat) bs lbs -> Forall short bs ->
  (forall lb, In lb lbs -> List.length (fst lb) <= 2 /\ fits u (snd lb)) -> forall acc r, known r ->
  exists r' l, map2_loop E zero assignable hook self dat kt et [("", [("", plain_struct s)])] bs acc r = (r', Ok l).
Proof.
  intro Ak. induction 1 as [|b lb bs lbs T F2 IHl]; intros Sh Ft acc r K; [do 2 eexists; reflexivity|].
  inversion Sh as [|? ? S1 S2]; subst. cbn [map2_loop].
  destruct (Ft lb (or_introl eq_refl)) as (Ls & Ft1).
  assert (C : map2_class [("", [("", plain_struct s)])] b = Some (plain_struct s)).
  { unfold map2_class. cbn [first_value lookup]. destruct (eq_dec (label0 b) ""); cbn [lookup];
      destruct (eq_dec (label1 b) ""); reflexivity. }
  rewrite C.
  destruct (known_block r b lb (Some 2) K T S1 Ft1 Ls) as (r' & x & -> & K').
  pose proof (held_stored _ _ _ Hd x) as Hs. destruct (stored E et u x) as [xt' y]. cbn in Hs. subst xt'. rewrite As, Ak.
  exact (IHl S2 (fun lb' I => Ft lb' (or_intror I)) _ r' K').
Qed.
End Elements.

Lemma tag_blocks_In : forall its tag lb, In lb (tag_blocks its tag) -> In (IBlock tag (fst lb) (snd lb)) its.
Proof.
  intros its tag lb I. unfold tag_blocks in I. apply in_flat_map in I as ([k e|k ls b] & J & I); [contradiction|].
  destruct (string_dec k tag) as [->|]; [|contradiction]. destruct I as [<-|[]]. exact J.
Qed.
Lemma tag_blocks_first : forall its tag b, first_named its tag b -> exists ls r, tag_blocks its tag = (ls, b) :: r.
Proof.
  intros its tag b (pre & ls & post & -> & N). unfold tag_blocks. rewrite flat_map_app.
  assert (Z : flat_map (fun i => match i with IBlock k ls b => if string_dec k tag then [(ls, b)] else [] | _ => [] end) pre = []).
  { induction pre as [|[k e|k ls' b'] pre IHp]; [reflexivity| |]; cbn [flat_map].
    - apply IHp. intros l x I. exact (N l x (or_intror I)).
    - destruct (string_dec k tag) as [->|]; [exfalso; apply (N ls' b'); left; reflexivity|].
      apply IHp. intros l x I. exact (N l x (or_intror I)). }
  rewrite Z. cbn [app flat_map]. destruct (string_dec tag tag); [|contradiction]. cbn [app]. eauto.
Qed.

(* The value of a block field. *)
Lemma block_value_ok : forall t f p ft tag kind its st u0 x bs r,
  find_field t (fname f) = Some (p, ft) -> field_fits f ft tag kind its Block ->
  Forall2 (block_text dat) bs (tag_blocks its tag) -> Forall short bs ->
  points E (ftype f) st -> auto_value E type_string st = Some (u0, x) ->
  ref_ok r -> all_usable E type_string zero r r x ->
  exists r' o, block_value E depth zero assignable hook self dat t f (Some x) bs r = (r', Ok o) /\
    match o with None => True | Some (xt, _) => assignable xt ft = true end.
Proof.
  intros t f p ft tag kind its st u0 x bs r F Ff BT Sh P Av O UA.
  assert (Self : forall t', under E (ftype f) = t' -> (forall u, t' <> TPtr u) -> st = ftype f).
  { intros t' U N. destruct P as [t0 w U'|t0 N']; [|reflexivity]. exfalso. apply (N w). congruence. }
  assert (Name : forall s u, value_struct x (plain_struct s) -> names_type E type_string s u -> known u s r).
  { intros s u V Nt. split; [exact O|]. exact (usable_plain E type_string zero distinct s u r r (UA _ V) Nt). }
  unfold block_value. destruct bs as [|b bs]; [do 2 eexists; split; [reflexivity|exact I]|].
  inversion Ff as [| | | | | | |f' ft' tag' kind' its' NB|f' ft' tag' kind' its' u xt bd Pu Su NM Ho As FN Ft
    |f' ft' tag' kind' its' et u xt Ut Hd NM As Af Ft|f' ft' tag' kind' its' kt et u xt Ut PK Hd NM Ak As Af Ft
    |f' ft' tag' kind' its' kt et u xt Ut PK Hd NM Ak As Af Ft]; subst.
  - (* no blocks *)
    exfalso. destruct (tag_blocks its tag) as [|lb lbs] eqn:Q; [inversion BT|].
    apply (NB (fst lb) (snd lb)). apply tag_blocks_In. rewrite Q. left. reflexivity.
  - (* one struct *)
    assert (st = u) by (rewrite <- (points_elem _ _ _ P), <- (points_elem _ _ _ Pu); reflexivity). subst st.
    destruct Su as (gs & Su). unfold auto_value in Av. rewrite Su in Av. injection Av as <- <-.
    destruct (tag_blocks_first _ _ _ FN) as (ls & rest & Eb). rewrite Eb in BT. inversion BT as [|? ? ? ? T1 _]; subst.
    inversion Sh as [|? ? S1 _]; subst.
    assert (Nt : names_type E type_string (type_string u) u) by (left; split; [exists gs; exact Su|reflexivity]).
    destruct (known_block u (type_string u) NM Nt r b (ls, bd) None (Name _ _ (vs_single _) Nt) T1 S1 Ft I) as (r' & y & -> & _).
    cbn [mapped]. do 2 eexists. split; [reflexivity|]. rewrite F. cbn [option_map snd fst].
    destruct Ho as [[(w & Q)|(ms & Q)]|N1 N2]; [rewrite Q; exact As|rewrite Q; exact As|].
    destruct (under E ft) eqn:Q; try exact As; exfalso; [apply N1|apply N2]; eexists; exact Q.
  - (* a slice *)
    rewrite (Self _ Ut ltac:(discriminate)) in Av. unfold auto_value in Av. rewrite Ut, (held_class _ _ _ Hd) in Av.
    injection Av as <- <-. rewrite Ut.
    pose proof (auto_names E type_string _ _ (held_class _ _ _ Hd)) as Nt.
    destruct (list_loop_ok u (type_string et) NM Nt et xt Hd As (b :: bs) _ BT Sh) with (k := 0) (r := r) as (r' & l & ->).
    { intros lb I. apply tag_blocks_In in I. exact (Ft _ _ I). }
    { apply Name; [apply vs_list; left; reflexivity|exact Nt]. }
    cbn [mapped]. do 2 eexists. split; [reflexivity|exact Af].
  - (* a map *)
    rewrite (Self _ Ut ltac:(discriminate)) in Av. unfold auto_value in Av. rewrite Ut, (held_class _ _ _ Hd) in Av.
    assert (PK' : pair_key E kt = false).
    { unfold pair_key. destruct (under E kt) eqn:Q; try reflexivity. exfalso. apply PK. eexists. exact Q. }
    rewrite PK' in Av. injection Av as <- <-. rewrite Ut.
    pose proof (auto_names E type_string _ _ (held_class _ _ _ Hd)) as Nt.
    destruct (listmap_loop_ok u (type_string et) NM Nt et xt Hd As kt Ak (b :: bs) _ BT Sh) with (acc := @nil (string * hval)) (r := r) as (r' & l & ->).
    { intros lb I. apply tag_blocks_In in I. exact (Ft _ _ I). }
    { apply Name; [apply vs_list; left; reflexivity|exact Nt]. }
    cbn [mapped]. do 2 eexists. split; [reflexivity|exact Af].
  - (* a map with pairs as keys *)
    rewrite (Self _ Ut ltac:(discriminate)) in Av. unfold auto_value in Av. rewrite Ut, (held_class _ _ _ Hd) in Av.
    assert (PK' : pair_key E kt = true) by (destruct PK as (w & Q); unfold pair_key; rewrite Q; reflexivity).
    rewrite PK' in Av. injection Av as <- <-. rewrite Ut.
    pose proof (auto_names E type_string _ _ (held_class _ _ _ Hd)) as Nt.
    destruct (map2_loop_ok u (type_string et) NM Nt et xt Hd As kt Ak (b :: bs) _ BT Sh) with (acc := @nil ((string * string) * hval)) (r := r) as (r' & l & ->).
    { intros lb I. apply tag_blocks_In in I. exact (Ft _ _ I). }
    { apply Name; [apply (vs_map2 _ "" "" [("", plain_struct (type_string et))]); left; reflexivity|exact Nt]. }
    cbn [mapped]. do 2 eexists. split; [reflexivity|exact Af].
Qed.

Lemma nests_ext : forall nulls nulls' n fs, (forall k, In k nulls <-> In k nulls') -> nests E nulls n fs -> nests E nulls' n fs.
Proof.
  intros nulls nulls' n fs X. revert fs. induction n as [|n IHn]; intros fs H; inversion H as [? ? K]; subst.
  constructor. intros f t gs I C P U. apply IHn. apply (K f t gs I); [|exact P|exact U].
  refine (class_of_ext E nulls' nulls [] f Inlined _ C). intro k. symmetry. apply X.
Qed.

Lemma split_attrs_ok : forall nulls L attrs, (forall a, In a attrs -> block_attr nulls L (a_name a) = false) ->
  exists p, split_attrs dat nulls L attrs = Ok p.
Proof.
  intros nulls L. induction attrs as [|a attrs IHa]; intro H; [eexists; reflexivity|].
  destruct IHa as (p & Hp); [intros b I; apply H; right; exact I|].
  cbn [split_attrs]. rewrite Hp. cbn [bindr]. specialize (H a (or_introl eq_refl)). unfold block_attr in H.
  destruct (grep nulls (a_name a)); [eauto|]. destruct (tag_in (l_dec L) (a_name a)); [eauto|].
  destruct (tag_in (l_labels L) (a_name a)); [eauto|]. cbn in H. rewrite H. eauto.
Qed.

Lemma gohcl_values_ok : forall attrs fs,
  (forall f, In f fs -> match lookup (tag_of f) attrs with
                        | Some v => exists x, decode_attr (ftype f) v = Ok x
                        | None => required f = false
                        end) -> exists raw, gohcl_values zero decode_attr fs attrs = Ok raw.
Proof.
  intros attrs. induction fs as [|f fs IHf]; intro H; [eexists; reflexivity|].
  destruct IHf as (raw & Hr); [intros g I; apply H; right; exact I|].
  specialize (H f (or_introl eq_refl)). cbn [gohcl_values]. rewrite Hr.
  destruct (tag_in fs (tag_of f)); [cbn [bindr]; eauto|].
  destruct (lookup (tag_of f) attrs) as [x|].
  - destruct H as (y & ->). cbn [bindr]. eauto.
  - rewrite H. cbn [bindr]. eauto.
Qed.

Theorem one_text : forall spec t its labels v ref, fields_of spec = [] -> ref_ok ref ->
  parse_config dat = Ok its -> fits t its ->
  exists v' ref', unmarshal_spec spec ref labels t v dat = (v', ref', Ok tt).
Proof.
  intros spec t its labels v ref Sp O B Ft. rewrite unmarshal_eq, Sp.
  inversion Ft as [t' fs nulls l its' U N A ND NT Ne Me Ca Cb Fd]; subst t' its'.
  fold (field_names l) in ND.
  destruct (file_complete _ _ B) as (pits & P & Er). subst its.
  destruct (file_attrs_ok pits) as (attrs & FA).
  { intros k e q z I. apply (Me k e). apply erase_attr. eauto. }
  assert (NN : forall k, In k nulls <-> In k (null_names attrs)).
  { intro k. rewrite N. unfold null_names. destruct (file_attrs_In _ _ FA) as (F1 & F2). split.
    - intros (e & I & M). apply erase_attr in I as (q & z & I).
      destruct (F2 _ _ _ _ I) as (x & X & J). apply in_map_iff. exists (mkAttr k x q z).
      split; [reflexivity|]. apply filter_In. split; [exact J|]. cbn.
      assert (x = CNull) by (inversion M; subst; cbn in X; congruence). subst x. reflexivity.
    - intro I. apply in_map_iff in I as (a & <- & I). apply filter_In in I as (I & Z).
      destruct (F1 a I) as (e & J & X). exists e. split; [apply erase_attr; eauto|].
      destruct (a_value a) eqn:V; try discriminate. apply expr_cty_means. exact X. }
  assert (D : NoDup (map a_name attrs)).
  { rewrite (file_attrs_names _ _ FA). apply has_dup_false.
    unfold parse_file in P. apply bindr_Ok in P as (ts & _ & P). apply bindr_Ok in P as (its' & _ & P).
    destruct (has_dup (pitem_names its')) eqn:D; [discriminate|]. injection P as ->. exact D. }
  assert (Found : forall k e, In (IAttr k e) (map erase pits) -> exists a, a_name a = k /\
    In (PAttr k e (a_eq a) (a_end a)) pits /\ expr_cty e = Ok (a_value a) /\
    forall X (g : hattr -> X), lookup k (map (fun a => (a_name a, g a)) attrs) = Some (g a)).
  { intros k e I. apply erase_attr in I as (q & z & I). destruct (file_attrs_In _ _ FA) as (_ & F2).
    destruct (F2 _ _ _ _ I) as (x & X & J). exists (mkAttr k x q z). split; [reflexivity|]. split; [exact I|].
    split; [exact X|]. intros T g. apply In_lookup.
    - unfold keys. rewrite map_map. exact D.
    - apply in_map_iff. exists (mkAttr k x q z). split; [reflexivity|exact J]. }
  assert (Missing : forall k, no_attr (map erase pits) k ->
    forall X (g : hattr -> X), lookup k (map (fun a => (a_name a, g a)) attrs) = None).
  { intros k Z X g. destruct (lookup k _) as [y|] eqn:LK; [|reflexivity]. exfalso. apply lookup_In in LK.
    apply in_map_iff in LK as (a & Q & I). injection Q as <- _. destruct (file_attrs_In _ _ FA) as (F1 & _).
    destruct (F1 a I) as (e & J & _). apply (Z e). apply erase_attr. eauto. }
  assert (A' := all_fields_ext E _ _ _ _ _ NN A).
  destruct (loop_fields_classes E type_string zero _ _ _ _ A') as (n0 & LC).
  destruct (LC n0 (le_n _) [] ref) as (L & LF0 & CL).
  { intros f c _. cbn. split; [intros []|congruence]. }
  { exact ND. }
  assert (LF := loop_fields_nests _ _ _ _ _ _ LF0 depth (nests_ext _ _ _ _ NN Ne)).
  destruct CL as (C1 & C2 & C3 & C4 & _).
  assert (Own := tag_own l). assert (Only := tag_only E [] fs nulls l A NT).
  assert (NotNull : forall f c, In (f, c) l -> claimed c = true -> grep (null_names attrs) (tag_of f) = false).
  { intros f c. exact (tag_null E [] fs nulls l A f c attrs NN). }
  assert (Tag : forall f c, In (f, c) l -> exists tag kind, tag2 (ftag f) = Ok (tag, kind)).
  { intros f c I. destruct (class_tag E _ _ _ _ (all_fields_class E _ _ _ _ A _ _ I)) as (tag & kind & T & _). eauto. }
  (* the attributes of the file *)
  assert (AttrOf : forall a, In a attrs -> exists e, In (IAttr (a_name a) e) (map erase pits) /\ expr_cty e = Ok (a_value a)).
  { intros a I. destruct (file_attrs_In _ _ FA) as (F1 & _). destruct (F1 a I) as (e & J & X).
    exists e. split; [apply erase_attr; eauto|exact X]. }
  assert (Claim : forall a, In a attrs -> grep (null_names attrs) (a_name a) = false ->
    exists f c, In (f, c) l /\ tag_of f = a_name a /\ (c = Label \/ c = Attr \/ c = Generic)).
  { intros a I G. destruct (AttrOf a I) as (e & J & _).
    destruct (Ca _ _ J) as (f & c & kind & If & T & Hc).
    - intro K. apply NN in K. apply grep_false in G. exact (G K).
    - exists f, c. split; [exact If|]. split; [exact (tag_of_tag2 _ _ _ T)|exact Hc]. }
  destruct (split_attrs_ok (null_names attrs) L attrs) as (q & Sq).
  { intros a I. unfold block_attr. destruct (grep (null_names attrs) (a_name a)) eqn:G; [reflexivity|].
    destruct (Claim a I G) as (f & c & If & T & Hc). rewrite C3, <- T.
    rewrite (Only f c Block If); [apply andb_false_r| |reflexivity|]; destruct Hc as [->|[->| ->]]; (reflexivity || discriminate). }
  destruct (split_attrs_parts _ _ _ _ _ Sq) as (S1 & S2 & S3 & bss & S4 & S5).
  unfold unmarshal_with. rewrite U, P. cbn [bindr]. rewrite FA. cbn [bindr]. fold (null_names attrs). rewrite LF.
  unfold split_body. rewrite Sq. cbn [bindr p_plain p_rest].
  set (bs := file_blocks pits).
  (* nothing is left for gohcl but the attributes *)
  assert (BlockOf : forall b, In b bs -> exists ls body, In (IBlock (b_type b) ls body) (map erase pits)).
  { intros b I. unfold bs, file_blocks in I. apply in_flat_map in I as ([k e x z|k ls o c body] & J & I); [contradiction|].
    destruct I as [<-|[]]. exists ls, body. apply in_map_iff. exists (PBlock k ls o c body). auto. }
  assert (Rest : filter (fun b => negb (tag_in (l_dec L) (b_type b)))
    (filter (fun b => negb (tag_in (l_ori L) (b_type b))) bs) = []).
  { destruct (filter _ (filter _ bs)) as [|b r] eqn:Q; [reflexivity|]. exfalso.
    assert (I : In b (filter (fun b => negb (tag_in (l_dec L) (b_type b))) (filter (fun b => negb (tag_in (l_ori L) (b_type b))) bs)))
      by (rewrite Q; left; reflexivity).
    apply filter_In in I as (I & G1). apply filter_In in I as (I & G2).
    destruct (BlockOf b I) as (ls & body & J). destruct (Cb _ _ _ J) as (f & c & kind & If & T & Hc).
    pose proof (Own _ _ If) as W. rewrite (tag_of_tag2 _ _ _ T) in W.
    destruct Hc as [->| ->]; [rewrite C3, W in G2|rewrite C4, W in G1]; discriminate. }
  rewrite Rest.
  assert (Plain : forall f, In (f, Attr) l -> plain_attr (null_names attrs) L (tag_of f) = true).
  { intros f I. unfold plain_attr. rewrite C1, C3, C4, (NotNull f Attr I eq_refl).
    rewrite !(Only f Attr _ I eq_refl) by (reflexivity || discriminate). reflexivity. }
  assert (LkP : forall f, In (f, Attr) l -> lookup (tag_of f) (p_plain q) = lookup (tag_of f) (map (fun a => (a_name a, a_value a)) attrs)).
  { intros f I. rewrite S1, (lookup_filter_name _ (plain_attr (null_names attrs) L) a_value), (Plain f I). reflexivity. }
  assert (Gd : exists raw, gohcl_decode zero decode_attr (l_new L) (p_plain q) [] = Ok raw).
  { unfold gohcl_decode.
    assert (G1 : has_dup (map fname (l_new L)) = false) by (apply has_dup_false; rewrite C2; apply class_names; exact ND).
    rewrite G1.
    assert (G2 : forallb (fun f => known_kind (kind_of_tag f)) (l_new L) = true).
    { apply forallb_forall. intros f I. rewrite C2 in I. apply of_class_In in I.
      destruct (Tag f _ I) as (tag & kind & T). destruct (Fd f Attr tag kind I eq_refl T) as (pa & ft & _ & Ff).
      unfold kind_of_tag. rewrite T. inversion Ff as [|? ? ? ? ? e x y K| | | | | | | | | |]; subst; [|reflexivity].
      destruct K as [->|[->| ->]]; reflexivity. }
    rewrite G2. cbn [negb].
    assert (G3 : existsb (fun kv : string * cval => negb (tag_in (l_new L) (fst kv))) (p_plain q) = false).
    { destruct (existsb _ _) eqn:X; [|reflexivity]. exfalso. apply existsb_exists in X as ([k x] & I & G). cbn [fst] in G.
      rewrite S1 in I. apply in_map_iff in I as (a & Q & I). injection Q as <- _. apply filter_In in I as (I & Pa).
      unfold plain_attr in Pa. apply negb_true_iff in Pa. apply orb_false_iff in Pa as (Pa & P1).
      apply orb_false_iff in Pa as (Pa & P2). apply orb_false_iff in Pa as (P4 & P3).
      destruct (Claim a I P4) as (f & c & If & T & Hc). pose proof (Own _ _ If) as W. rewrite T in W.
      destruct Hc as [->|[->| ->]]; [rewrite C1 in P2|rewrite C2 in G|rewrite C4 in P3]; rewrite W in *; discriminate. }
    rewrite G3. apply gohcl_values_ok. intros f I. rewrite C2 in I. apply of_class_In in I. rewrite (LkP f I).
    destruct (Tag f _ I) as (tag & kind & T). destruct (Fd f Attr tag kind I eq_refl T) as (pa & ft & _ & Ff).
    rewrite (tag_of_tag2 _ _ _ T).
    inversion Ff as [|? ? ? ? ? e x y K J M Dx As|? ? ? ? Z| | | | | | | | |]; subst.
    - destruct (Found _ _ J) as (a & _ & _ & X & Lk). rewrite Lk. apply RoundProofs.means_cty in M. rewrite M in X.
      injection X as <-. eauto.
    - rewrite (Missing _ Z). unfold required, kind_of_tag. rewrite T. reflexivity. }
  destruct Gd as (raw & Gd). rewrite Gd. cbn [bindr].
  (* the assignments *)
  assert (LR := loop_fields_rel E type_string zero distinct depth (null_names attrs) fs [] ref ref O O).
  specialize (LR ltac:(intros k x H; discriminate) ltac:(intros k x H; discriminate)).
  rewrite LF in LR. destruct LR as (_ & _ & _ & _ & _ & GR & _ & OK & _ & LV1 & _).
  apply run_ok with (Inv := fun r => ref_ok r /\ grows (l_ref L) r); [|split; [exact OK|apply grows_refl]].
  intros name g I w r (Or & Gr). rewrite !in_app_iff in I. destruct I as [I|[I|[I|[I|I]]]].
  - (* labels as attributes *)
    unfold label_attr_actions in I. apply in_map_iff in I as (f & Q & I). injection Q as <- <-.
    rewrite C1 in I. apply of_class_In in I. unfold pure. cbn [p_labels].
    destruct (Tag f _ I) as (tag & kind & T). destruct (Fd f Label tag kind I eq_refl T) as (pa & ft & F & Ff).
    inversion Ff as [? ? ? ? ? As Es| | | | | | | | | | |]; subst.
    assert (La : label_attr (null_names attrs) L (tag_of f) = true).
    { unfold label_attr. rewrite C1, C4, (NotNull f Label I eq_refl), (Own f Label I).
      rewrite (Only f Label Generic I eq_refl eq_refl ltac:(discriminate)). reflexivity. }
    rewrite S2, (lookup_filter_name _ (label_attr (null_names attrs) L) a_value), La, (tag_of_tag2 _ _ _ T).
    destruct (lookup tag (map (fun a => (a_name a, a_value a)) attrs)) as [x|] eqn:LK.
    + apply lookup_In in LK. apply in_map_iff in LK as (a & Q & Ia). injection Q as <- <-.
      destruct (AttrOf a Ia) as (e & J & X). destruct (Es e J) as (s & ->). cbn in X. injection X as <-.
      do 2 eexists. split; [reflexivity|]. split; [auto|]. eauto.
    + do 2 eexists. split; [reflexivity|]. split; [auto|exact Logic.I].
  - (* labels from above *)
    unfold label_arg_actions in I. destruct (Nat.eqb _ _); [|contradiction].
    apply in_map_iff in I as ([f lb] & Q & I). injection Q as <- <-. apply in_combine_l in I.
    rewrite C1 in I. apply of_class_In in I. cbn [fst snd].
    destruct (Tag f _ I) as (tag & kind & T). destruct (Fd f Label tag kind I eq_refl T) as (pa & ft & F & Ff).
    inversion Ff as [? ? ? ? ? As Es| | | | | | | | | | |]; subst.
    destruct (String.eqb _ ""); do 2 eexists; (split; [reflexivity|]); (split; [auto|]); [eauto|exact Logic.I].
  - (* attributes *)
    unfold plain_actions in I. apply in_map_iff in I as ([f x] & Q & I). injection Q as <- <-. apply in_combine_l in I.
    rewrite C2 in I. apply of_class_In in I. unfold pure. cbn [p_plain fst snd]. rewrite (LkP f I).
    destruct (Tag f _ I) as (tag & kind & T). destruct (Fd f Attr tag kind I eq_refl T) as (pa & ft & F & Ff).
    rewrite (tag_of_tag2 _ _ _ T).
    inversion Ff as [|? ? ? ? ? e y z K J M Dx As|? ? ? ? Z| | | | | | | | |]; subst.
    + destruct (Found _ _ J) as (a & _ & _ & _ & Lk). rewrite Lk. do 2 eexists. split; [reflexivity|]. split; [auto|]. eauto.
    + rewrite (Missing _ Z). do 2 eexists. split; [reflexivity|]. split; [auto|exact Logic.I].
  - (* generic data *)
    unfold generic_actions in I. apply in_map_iff in I as (f & Q & I). injection Q as <- <-.
    rewrite C4 in I. apply of_class_In in I. unfold pure. cbn [p_decattrs p_decblock].
    destruct (Tag f _ I) as (tag & kind & T). destruct (Fd f Generic tag kind I eq_refl T) as (pa & ft & F & Ff).
    assert (Da : dec_attr (null_names attrs) L (tag_of f) = true).
    { unfold dec_attr. rewrite C4, (NotNull f Generic I eq_refl), (Own f Generic I). reflexivity. }
    rewrite S3, (lookup_filter_name _ (dec_attr (null_names attrs) L) (fun a => a)), Da.
    assert (PB : blocks_of tag (filter (fun b => tag_in (l_dec L) (b_type b)) (filter (fun b => negb (tag_in (l_ori L) (b_type b))) bs))
      = blocks_of tag bs).
    { pose proof (Own _ _ I) as TO. rewrite (tag_of_tag2 _ _ _ T), <- C4 in TO.
      pose proof (Only _ _ Block I eq_refl eq_refl ltac:(discriminate)) as TN. rewrite (tag_of_tag2 _ _ _ T), <- C3 in TN.
      clear -TO TN. unfold blocks_of. induction bs as [|b bs IHb]; [reflexivity|]. cbn [filter].
      destruct (String.eqb_spec (b_type b) tag) as [Eb|Nb].
      - rewrite Eb, TN. cbn [negb filter]. rewrite Eb, TO. cbn [filter]. rewrite Eb, String.eqb_refl, IHb. reflexivity.
      - destruct (negb (tag_in (l_ori L) (b_type b))); [|exact IHb]. cbn [filter].
        destruct (tag_in (l_dec L) (b_type b)); [|exact IHb]. cbn [filter].
        destruct (String.eqb_spec (b_type b) tag); [contradiction|exact IHb]. }
    rewrite (tag_of_tag2 _ _ _ T), PB.
    inversion Ff as [| | |? ? ? ? ? es Sl J Ge As|? ? ? ? ? es Sl J Ge As|? ? ? ? ? b Sl Z FN Nb Gi As|? ? ? ? ? Z Zb| | | | |]; subst.
    + destruct (Found _ _ J) as (a & _ & Pa & _ & Lk). rewrite Lk. unfold decode_generic, is_slice.
      destruct Sl as (et & ->). rewrite (decode_slice_attr _ _ _ _ _ _ P Pa).
      destruct (expr_complete _ Ge) as (n & ->). cbn [bindr]. do 2 eexists. split; [reflexivity|]. split; [auto|]. eauto.
    + destruct (Found _ _ J) as (a & _ & Pa & _ & Lk). rewrite Lk.
      assert (Ns : is_slice E (ftype f) = false).
      { unfold is_slice. destruct (under E (ftype f)) eqn:Q; try reflexivity. exfalso. apply Sl. eexists. exact Q. }
      unfold decode_generic. rewrite Ns, (decode_map_attr _ _ _ _ _ _ bare P Pa).
      destruct (expr_complete _ Ge) as (n & ->). cbn [bindr]. do 2 eexists. split; [reflexivity|]. split; [auto|]. eauto.
    + rewrite (Missing _ Z).
      assert (Ns : is_slice E (ftype f) = false).
      { unfold is_slice. destruct (under E (ftype f)) eqn:Q; try reflexivity. exfalso. apply Sl. eexists. exact Q. }
      destruct (tag_blocks_first _ _ _ FN) as (ls & rest & Eb).
      pose proof (blocks_texts _ _ tag P) as BT. fold bs in BT. rewrite Eb in BT.
      inversion BT as [|hb ? hbs ? (_ & T2) _ Q1]; subst. cbn [snd] in T2.
      unfold decode_generic. rewrite Ns, (decode_map_body _ _ T2 Nb).
      destruct (decode_complete _ Gi) as (n & ->). cbn [bindr]. do 2 eexists. split; [reflexivity|]. split; [auto|]. eauto.
    + rewrite (Missing _ Z).
      assert (Nb : blocks_of tag bs = []).
      { destruct (blocks_of tag bs) as [|b r'] eqn:Q; [reflexivity|]. exfalso.
        assert (Ib : In b (blocks_of tag bs)) by (rewrite Q; left; reflexivity).
        unfold blocks_of in Ib. apply filter_In in Ib as (Ib & Tb). apply String.eqb_eq in Tb. subst tag.
        destruct (BlockOf b Ib) as (ls & body & J). exact (Zb _ _ J). }
      rewrite Nb. do 2 eexists. split; [reflexivity|]. split; [auto|exact Logic.I].
  - (* blocks *)
    unfold block_actions in I. apply in_map_iff in I as (f & Q & I). injection Q as <- <-.
    rewrite C3 in I. apply of_class_In in I. cbn [p_ori].
    destruct (Tag f _ I) as (tag & kind & T). destruct (Fd f Block tag kind I eq_refl T) as (pa & ft & F & Ff).
    destruct (loop_fields_auto E type_string zero assignable decode_attr hook _ _ _ _ A' depth [] ref L) with (f := f)
      as (st & u0 & x & Pt & Bt & Av & Lk).
    { intros f' c' _. cbn. split; [intros []|congruence]. }
    { exact ND. }
    { exact LF. }
    { exact I. }
    { intros []. }
    assert (PO : blocks_of tag (p_ori q ++ filter (fun b => tag_in (l_ori L) (b_type b)) bs) = blocks_of tag bs).
    { unfold blocks_of. rewrite filter_app. fold (blocks_of tag (p_ori q)).
      fold (blocks_of tag (filter (fun b => tag_in (l_ori L) (b_type b)) bs)).
      rewrite S5, (attr_blocks_other _ _ _ _ S4).
      - apply blocks_of_filter. rewrite C3, <- (tag_of_tag2 _ _ _ T). exact (Own _ _ I).
      - intro J. apply in_map_iff in J as (a & Qa & J). apply filter_In in J as (J & Ba).
        unfold block_attr in Ba. destruct (grep (null_names attrs) (a_name a)) eqn:G; [discriminate|].
        destruct (Claim a J G) as (f' & c & If & Tf & Hc). rewrite C3, <- Tf in Ba.
        rewrite (Only f' c Block If) in Ba; [rewrite andb_false_r in Ba; discriminate| |reflexivity|];
          destruct Hc as [->|[->| ->]]; (reflexivity || discriminate). }
    rewrite (tag_of_tag2 _ _ _ T), PO, Lk.
    assert (UA : all_usable E type_string zero r r x).
    { assert (KG : both_grow E type_string zero (l_ref L) (l_ref L) r r) by (split; [exact Gr|split; [exact Gr|split; exact Or]]).
      intros s V. apply (usable_grows _ _ _ (l_ref L) (l_ref L) _ _ _ KG).
      destruct (LV1 _ _ Lk) as [Us|(s1 & u1 & Nt & Lk1 & X1)].
      - left. intros c Cc. exact (Us s c V Cc).
      - right. exists s1, u1. split; [exact (X1 _ V)|]. auto. }
    assert (Sh : Forall short (blocks_of tag bs)).
    { apply Forall_forall. intros b J. unfold blocks_of in J. apply filter_In in J as (J & _).
      destruct (parse_file_blocks _ _ _ P J) as (Nd & Op). split; [exact (slice_shorter _ _ _ Nd Op)|exact (bare_blocks _ _ _ bare P J)]. }
    pose proof (blocks_texts _ _ tag P) as BT. fold bs in BT.
    pose proof (block_value_rel E depth type_string zero assignable hook self
      (self_rel E depth type_string zero assignable decode_attr hook distinct) dat t f (Some x) (blocks_of tag bs) r r
      (linked_self _ Or)) as (_ & G1 & _ & O1 & _).
    { intros y Qy. injection Qy as <-. exact UA. }
    destruct (block_value_ok t f pa ft tag kind _ st u0 x (blocks_of tag bs) r F Ff BT Sh Pt Av Or UA) as (r' & o & V & As).
    rewrite V in G1, O1 |- *. cbn [fst] in G1, O1. exists r', o. split; [reflexivity|].
    split; [split; [exact O1|exact (grows_trans _ _ _ _ _ _ Gr G1)]|].
    destruct o as [[xt y]|]; [eauto|exact Logic.I].
Qed.
End One.

Theorem fits_accepted : forall dat spec t its labels v ref, fields_of spec = [] -> ref_ok ref ->
  bare_values dat -> parse_config dat = Ok its -> fits t its ->
  exists v' ref', unmarshal_spec spec ref labels t v dat = (v', ref', Ok tt).
Proof.
  intro dat. remember (String.length dat) as n eqn:Hn. revert dat Hn.
  induction n as [n IH] using (well_founded_induction lt_wf). intros dat ->.
  intros spec t its labels v ref Sp O Bv B Ft. refine (one_text dat Bv _ spec t its labels v ref Sp O B Ft).
  intros text (Sh & Tv) s u its' ls w r Ss Or Bt Fu. unfold StructBlock.self.
  apply (IH _ Sh text eq_refl (Some s) u its' ls w r Ss Or Tv Bt Fu).
Qed.
End Fit.
