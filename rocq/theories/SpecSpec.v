(* What a spec given as Go values means, independently of the builders of SpecModel.v. *)

From Verif Require Import Base SpecModel.

(* ------------------------------------------------------------------- UTF-8 *)

(* Unicode scalar values and their UTF-8 encoding (RFC 3629). *)
Definition scalar (c : Z) : Prop := (0 <= c < 55296 \/ 57344 <= c < 1114112)%Z.
Definition chr (z : Z) : ascii := ascii_of_N (Z.to_N z).
Definition encode_scalar (c : Z) : string :=
  (if c <? 128 then String (chr c) ""
   else if c <? 2048 then String (chr (192 + c / 64)) (String (chr (128 + c mod 64)) "")
   else if c <? 65536 then
     String (chr (224 + c / 4096)) (String (chr (128 + (c / 64) mod 64)) (String (chr (128 + c mod 64)) ""))
   else String (chr (240 + c / 262144)) (String (chr (128 + (c / 4096) mod 64))
     (String (chr (128 + (c / 64) mod 64)) (String (chr (128 + c mod 64)) ""))))%Z.
Definition is_utf8 (s : string) : Prop :=
  exists cs, Forall scalar cs /\ s = fold_right (fun c t => encode_scalar c +++ t) "" cs.

(* ------------------------------------------------------ maps up to order *)

(* n is a map with exactly the keys of m and related values. *)
Definition map_rel {K A B : Type} (R : A -> B -> Prop) (m : list (K * A)) (n : list (K * B)) : Prop :=
  NoDup (map fst n) /\ (forall k, In k (map fst m) <-> In k (map fst n)) /\
  (forall k a b, In (k, a) m -> In (k, b) n -> R a b).

(* The entries of a two-level map, keyed by both keys. *)
Definition entries2 {A : Type} (x : list (string * list (string * A))) : list ((string * string) * A) :=
  flat_map (fun km => map (fun js => ((fst km, fst js), snd js)) (snd km)) x.

(* Two-level map n has exactly the pair keys of m, with related values. *)
Definition map2_rel {A B : Type} (R : A -> B -> Prop) (m : list ((string * string) * A))
    (n : list (string * list (string * B))) : Prop :=
  NoDup (map fst n) /\ (forall k ms, In (k, ms) n -> ms <> []) /\ map_rel R m (entries2 n).

(* ------------------------------------------------------------------ meaning *)

(* value_of v x: x is the spec value that v denotes. *)
Inductive value_of : gv -> svalue -> Prop :=
| vo_str : forall s, value_of (GStr s) (VSingle (SStruct s None))
| vo_pair : forall a b x, struct_of a b x -> value_of (GPair a b) (VSingle x)
| vo_strs : forall l, value_of (GStrs l) (VList (map (fun s => SStruct s None) l))
| vo_pairs : forall l xs, Forall2 (fun p x => struct_of (fst p) (snd p) x) l xs ->
    value_of (GPairs l) (VList xs)
| vo_mapstr : forall m xs, map_rel (fun s x => x = SStruct s None) m xs -> value_of (GMapStr m) (VMap xs)
| vo_mappair : forall m xs, map_rel (fun p x => struct_of (fst p) (snd p) x) m xs ->
    value_of (GMapPair m) (VMap xs)
| vo_map2str : forall m xs, map2_rel (fun s x => x = SStruct s None) m xs ->
    value_of (GMap2Str m) (VMap2 xs)
| vo_map2pair : forall m xs, map2_rel (fun p x => struct_of (fst p) (snd p) x) m xs ->
    value_of (GMap2Pair m) (VMap2 xs)
| vo_struct : forall s, value_of (GStruct s) (VSingle s)
| vo_structs : forall l, value_of (GStructs l) (VList l)
| vo_mapstruct : forall m, value_of (GMapStruct m) (VMap m)
| vo_mapmapstruct : forall m, value_of (GMapMapStruct m) (VMap2 m)
(* struct_of a b x: x is the class spec that the pair {a, b} denotes. *)
with struct_of : gv -> gv -> sstruct -> Prop :=
| so_end : forall name, struct_of (GStr name) GNil (SStruct name None)
| so_fields : forall name m fs, map_rel value_of m fs ->
    struct_of (GStr name) (GMap m) (SStruct name (Some fs)).

(* wf_value v: v is one of the accepted forms, at every depth, with UTF-8 field names. *)
Inductive wf_value : gv -> Prop :=
| wv_str : forall s, wf_value (GStr s)
| wv_pair : forall a b, wf_struct a b -> wf_value (GPair a b)
| wv_strs : forall l, wf_value (GStrs l)
| wv_pairs : forall l, (forall a b, In (a, b) l -> wf_struct a b) -> wf_value (GPairs l)
| wv_mapstr : forall m, wf_value (GMapStr m)
| wv_mappair : forall m, (forall k a b, In (k, (a, b)) m -> wf_struct a b) -> wf_value (GMapPair m)
| wv_map2str : forall m, wf_value (GMap2Str m)
| wv_map2pair : forall m, (forall k a b, In (k, (a, b)) m -> wf_struct a b) -> wf_value (GMap2Pair m)
| wv_struct : forall s, wf_value (GStruct s)
| wv_structs : forall l, wf_value (GStructs l)
| wv_mapstruct : forall m, wf_value (GMapStruct m)
| wv_mapmapstruct : forall m, wf_value (GMapMapStruct m)
with wf_struct : gv -> gv -> Prop :=
| ws_end : forall name, wf_struct (GStr name) GNil
| ws_fields : forall name m, (forall k v, In (k, v) m -> is_utf8 k /\ wf_value v) ->
    wf_struct (GStr name) (GMap m).

(* ---------------------------------------------------------------- subvalues *)

(* sub u v: u occurs in v (through pairs, lists and map values). *)
Inductive sub : gv -> gv -> Prop :=
| sub_refl : forall v, sub v v
| sub_pair : forall u w a b, sub u w -> w = a \/ w = b -> sub u (GPair a b)
| sub_pairs : forall u w a b l, sub u w -> In (a, b) l -> w = a \/ w = b -> sub u (GPairs l)
| sub_mappair : forall u w k a b m, sub u w -> In (k, (a, b)) m -> w = a \/ w = b -> sub u (GMapPair m)
| sub_map2pair : forall u w k a b m, sub u w -> In (k, (a, b)) m -> w = a \/ w = b -> sub u (GMap2Pair m)
| sub_map : forall u w k m, sub u w -> In (k, w) m -> sub u (GMap m).

(* The association lists standing for Go maps have no repeated key. *)
Definition is_go_value (v : gv) : Prop := forall u, sub u v ->
  match u with
  | GMapStr m => NoDup (map fst m)
  | GMapPair m => NoDup (map fst m)
  | GMap2Str m => NoDup (map fst m)
  | GMap2Pair m => NoDup (map fst m)
  | GMap m => NoDup (map fst m)
  | _ => True
  end.

(* No two-level map in v has two entries with the same first key. *)
Definition first_keys_distinct (v : gv) : Prop := forall u, sub u v ->
  match u with
  | GMap2Str m => NoDup (map (fun e => fst (fst e)) m)
  | GMap2Pair m => NoDup (map (fun e => fst (fst e)) m)
  | _ => True
  end.

(* ------------------------------------------------ equality up to map order *)

(* The same spec, whatever the order in which map entries are listed. *)
Inductive same_value : svalue -> svalue -> Prop :=
| sv_refl : forall v, same_value v v
| sv_single : forall s s', same_struct s s' -> same_value (VSingle s) (VSingle s')
| sv_list : forall l l', Forall2 same_struct l l' -> same_value (VList l) (VList l')
| sv_map : forall m m', map_rel same_struct m m' -> same_value (VMap m) (VMap m')
| sv_map2 : forall m m', map_rel (map_rel same_struct) m m' -> same_value (VMap2 m) (VMap2 m')
with same_struct : sstruct -> sstruct -> Prop :=
| ss_end : forall n, same_struct (SStruct n None) (SStruct n None)
| ss_fields : forall n fs fs', map_rel same_value fs fs' ->
    same_struct (SStruct n (Some fs)) (SStruct n (Some fs')).

(* The same Go value, listed in another iteration order at any depth. *)
Inductive reorder : gv -> gv -> Prop :=
| ro_str : forall s, reorder (GStr s) (GStr s)
| ro_pair : forall a b a' b', reorder a a' -> reorder b b' -> reorder (GPair a b) (GPair a' b')
| ro_strs : forall l, reorder (GStrs l) (GStrs l)
| ro_pairs : forall l l', Forall2 (fun p q => reorder (fst p) (fst q) /\ reorder (snd p) (snd q)) l l' ->
    reorder (GPairs l) (GPairs l')
| ro_mapstr : forall m m', map_rel eq m m' -> reorder (GMapStr m) (GMapStr m')
| ro_mappair : forall m m', map_rel (fun p q => reorder (fst p) (fst q) /\ reorder (snd p) (snd q)) m m' ->
    reorder (GMapPair m) (GMapPair m')
| ro_map2str : forall m m', map_rel eq m m' -> reorder (GMap2Str m) (GMap2Str m')
| ro_map2pair : forall m m', map_rel (fun p q => reorder (fst p) (fst q) /\ reorder (snd p) (snd q)) m m' ->
    reorder (GMap2Pair m) (GMap2Pair m')
| ro_struct : forall s, reorder (GStruct s) (GStruct s)
| ro_structs : forall s, reorder (GStructs s) (GStructs s)
| ro_mapstruct : forall s, reorder (GMapStruct s) (GMapStruct s)
| ro_mapmapstruct : forall s, reorder (GMapMapStruct s) (GMapMapStruct s)
| ro_map : forall m m', map_rel reorder m m' -> reorder (GMap m) (GMap m')
| ro_nil : reorder GNil GNil
| ro_other : reorder GOther GOther.

(* ---------------------------------------------------------------- shorthand *)

Definition long (s : string) : gv := GPair (GStr s) GNil.

(* Rewrite every shorthand in v to its long form, at every depth. *)
Fixpoint expand (v : gv) : gv :=
  let on_second (b : gv) := match b with
    | GMap m => GMap (map (fun kv => (fst kv, expand (snd kv))) m)
    | _ => b
    end in
  match v with
  | GStr s => long s
  | GPair a b => GPair a (on_second b)
  | GStrs l => GPairs (map (fun s => (GStr s, GNil)) l)
  | GPairs l => GPairs (map (fun p => (fst p, on_second (snd p))) l)
  | GMapStr m => GMapPair (map (fun kv => (fst kv, (GStr (snd kv), GNil))) m)
  | GMapPair m => GMapPair (map (fun kp => (fst kp, (fst (snd kp), on_second (snd (snd kp))))) m)
  | GMap2Str m => GMap2Pair (map (fun kv => (fst kv, (GStr (snd kv), GNil))) m)
  | GMap2Pair m => GMap2Pair (map (fun kp => (fst kp, (fst (snd kp), on_second (snd (snd kp))))) m)
  | _ => v
  end.
