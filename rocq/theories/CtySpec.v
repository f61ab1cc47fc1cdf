(* What the number and value conversions should do, stated without the conversion code. *)

From Verif Require Import Base CtyModel.

(* d equals the integer z. *)
Definition is_whole (d : dyadic) (z : Z) : Prop := (num d = z * 2 ^ Z.of_nat (den d))%Z.
Definition whole (d : dyadic) : Prop := exists z, is_whole d z.

Definition in_int64 (z : Z) : Prop := (- 2 ^ 63 <= z < 2 ^ 63)%Z.
Definition in_int32 (z : Z) : Prop := (- 2 ^ 31 <= z < 2 ^ 31)%Z.

(* Order and distance of two numbers, cleared of denominators. *)
Definition le_num (a b : dyadic) : Prop := (num a * pow2 (den b) <= num b * pow2 (den a))%Z.
Definition lt_num (a b : dyadic) : Prop := (num a * pow2 (den b) < num b * pow2 (den a))%Z.
Definition same_num (a b : dyadic) : Prop := (num a * pow2 (den b) = num b * pow2 (den a))%Z.

(* d is n * 2^q for a mantissa and an exponent of the format, and in range. *)
Definition representable (f : format) (d : dyadic) : Prop :=
  exists n q : Z,
    (Z.abs n < 2 ^ prec f)%Z /\ (last_place f <= q)%Z
    /\ (num d * 2 ^ Z.max 0 (- q) = n * 2 ^ Z.max 0 q * 2 ^ Z.of_nat (den d))%Z
    /\ (Z.abs (num d) < 2 ^ bound f * 2 ^ Z.of_nat (den d))%Z.

(* r is at least as close to d as every number of the format (all over one denominator). *)
Definition nearest (f : format) (r d : dyadic) : Prop :=
  forall y, representable f y ->
    (Z.abs (num r * pow2 (den d) - num d * pow2 (den r)) * pow2 (den y)
     <= Z.abs (num y * pow2 (den d) - num d * pow2 (den y)) * pow2 (den r))%Z.

(* The native number that stands for the integer z: int when it fits 32 bits. *)
Definition native_int (z : Z) (v : native) : Prop :=
  (v = NInt z /\ in_int32 z) \/ (v = NInt64 z /\ ~ in_int32 z).

(* What a converted number may be. *)
Inductive number_native : dyadic -> native -> Prop :=
| nn_int d z v : is_whole d z -> in_int64 z -> native_int z v -> number_native d v
| nn_f32 d x : (0 < num d)%Z -> ~ whole d -> representable float64 d ->
    representable float32 x -> nearest float32 x d -> le_num d x -> number_native d (NF32 x)
| nn_f64 d : (0 < num d)%Z -> ~ whole d -> representable float64 d -> number_native d (NF64 d).

Section Data.
Variable norm : string -> string.

(* Native data whose strings and keys are normalised, with distinct keys in each map. *)
Inductive tidy : native -> Prop :=
| tidy_nil : tidy NNil
| tidy_str s : norm s = s -> tidy (NStr s)
| tidy_bool b : tidy (NBool b)
| tidy_int z : tidy (NInt z)
| tidy_int64 z : tidy (NInt64 z)
| tidy_f32 d : tidy (NF32 d)
| tidy_inf : tidy NInf32
| tidy_f64 d : tidy (NF64 d)
| tidy_nilmap : tidy NNilMap
| tidy_map m : NoDup (map fst m) -> (forall k v, In (k, v) m -> norm k = k /\ tidy v) ->
    tidy (NMap m)
| tidy_nillist : tidy NNilList
| tidy_list l : (forall v, In v l -> tidy v) -> tidy (NList l).

(* Native data that come back as they went in. *)
Inductive stable : native -> Prop :=
| st_str s : norm s = s -> stable (NStr s)
| st_bool b : stable (NBool b)
| st_int z : in_int32 z -> stable (NInt z)
| st_int64 z : in_int64 z -> ~ in_int32 z -> stable (NInt64 z)
| st_f32 d : (0 < num d)%Z -> ~ whole d -> representable float32 d -> stable (NF32 d)
| st_inf : stable NInf32
| st_f64 d : (0 < num d)%Z -> ~ whole d -> representable float64 d ->
    (forall x, representable float32 x -> nearest float32 x d -> lt_num x d) ->
    stable (NF64 d)
| st_nilmap : stable NNilMap
| st_map m : m <> [] -> NoDup (map fst m) ->
    (forall k v, In (k, v) m -> norm k = k /\ stable v) -> stable (NMap m)
| st_nillist : stable NNilList
| st_list l : l <> [] -> (forall v, In v l -> stable v) -> stable (NList l).
End Data.

(* v' is what comes back for v: nothing is dropped or moved, a nil anywhere becomes a nil
   map, and empty collections become nil ones. *)
Inductive comes_back : native -> native -> Prop :=
| cb_nil : comes_back NNil NNilMap
| cb_str s : comes_back (NStr s) (NStr s)
| cb_bool b : comes_back (NBool b) (NBool b)
| cb_int z v : native_int z v -> in_int64 z -> comes_back (NInt z) v
| cb_int64 z v : native_int z v -> in_int64 z -> comes_back (NInt64 z) v
| cb_f32 d v : number_native d v -> comes_back (NF32 d) v
| cb_inf : comes_back NInf32 NInf32
| cb_f64 d v : number_native d v -> comes_back (NF64 d) v
| cb_nilmap : comes_back NNilMap NNilMap
| cb_nomap : comes_back (NMap []) NNilMap
| cb_map m m' : m <> [] ->
    Forall2 (fun a b => fst a = fst b /\ comes_back (snd a) (snd b)) m m' ->
    comes_back (NMap m) (NMap m')
| cb_nillist : comes_back NNilList NNilList
| cb_nolist : comes_back (NList []) NNilList
| cb_list l l' : l <> [] -> Forall2 comes_back l l' -> comes_back (NList l) (NList l').

(* The floats in v are floats of their type. *)
Inductive typed : native -> Prop :=
| ty_nil : typed NNil
| ty_str s : typed (NStr s)
| ty_bool b : typed (NBool b)
| ty_int z : in_int64 z -> typed (NInt z)
| ty_int64 z : in_int64 z -> typed (NInt64 z)
| ty_f32 d : representable float32 d -> typed (NF32 d)
| ty_inf : typed NInf32
| ty_f64 d : representable float64 d -> typed (NF64 d)
| ty_nilmap : typed NNilMap
| ty_map m : (forall k v, In (k, v) m -> typed v) -> typed (NMap m)
| ty_nillist : typed NNilList
| ty_list l : (forall v, In v l -> typed v) -> typed (NList l).

(* A number CtyNumberToNative has a native form for: a whole number of int64, or a positive
   fraction. *)
Definition fits (d : dyadic) : Prop :=
  (exists z, is_whole d z /\ in_int64 z) \/ (~ whole d /\ (0 < num d)%Z).

Inductive all_fit : native -> Prop :=
| af_nil : all_fit NNil
| af_str s : all_fit (NStr s)
| af_bool b : all_fit (NBool b)
| af_int z : all_fit (NInt z)
| af_int64 z : all_fit (NInt64 z)
| af_f32 d : fits d -> all_fit (NF32 d)
| af_inf : all_fit NInf32
| af_f64 d : fits d -> all_fit (NF64 d)
| af_nilmap : all_fit NNilMap
| af_map m : (forall k v, In (k, v) m -> all_fit v) -> all_fit (NMap m)
| af_nillist : all_fit NNilList
| af_list l : (forall v, In v l -> all_fit v) -> all_fit (NList l).

Definition not_null (c : cval) : bool := match c with CNull => false | _ => true end.

(* The native form of a cty value: null entries and elements are left out. *)
Inductive converts : cval -> native -> Prop :=
| cv_null : converts CNull NNil
| cv_str s : converts (CStr s) (NStr s)
| cv_bool b : converts (CBool b) (NBool b)
| cv_num d v : cty_number_to_native d = Ok v -> converts (CNum d) v
| cv_inf : converts CInf NInf32
| cv_noobj m : filter (fun kv => not_null (snd kv)) m = [] -> converts (CObj m) NNilMap
| cv_obj m m' : m' <> [] ->
    Forall2 (fun a b => fst a = fst b /\ converts (snd a) (snd b))
            (filter (fun kv => not_null (snd kv)) m) m' ->
    converts (CObj m) (NMap m')
| cv_notup l : filter not_null l = [] -> converts (CTup l) NNilList
| cv_tup l l' : l' <> [] -> Forall2 converts (filter not_null l) l' ->
    converts (CTup l) (NList l').
