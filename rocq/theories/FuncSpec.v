(* What the functions of internal/lang/funcs are meant to do, stated apart from their model. *)

From Verif Require Import Base CtyModel FuncModel.

(* Values that go-cty can hold: elements have the element type, names are distinct. *)
Inductive typed : value -> Prop :=
| ty_unknown ms t p : typed (Val ms (SUnknown t p) [])
| ty_null ms t : typed (Val ms (SNull t) [])
| ty_str ms s : typed (Val ms (SStr s) [])
| ty_num ms n : typed (Val ms (SNum n) [])
| ty_bool ms b : typed (Val ms (SBool b) [])
| ty_list ms t l : (forall k v, In (k, v) l -> typed v /\ type_of v = t) -> typed (Val ms (SList t) l)
| ty_set ms t l : (forall k v, In (k, v) l -> typed v /\ type_of v = t) -> typed (Val ms (SSet t) l)
| ty_map ms t l : NoDup (keys l) -> (forall k v, In (k, v) l -> typed v /\ type_of v = t) -> typed (Val ms (SMap t) l)
| ty_tuple ms l : (forall k v, In (k, v) l -> typed v) -> typed (Val ms STuple l)
| ty_obj ms l : NoDup (keys l) -> (forall k v, In (k, v) l -> typed v) -> typed (Val ms SObj l).

(* A mark anywhere in a value. *)
Inductive marked_in (m : mark) : value -> Prop :=
| mi_here ms s l : In m ms -> marked_in m (Val ms s l)
| mi_in ms s l k v : In (k, v) l -> marked_in m v -> marked_in m (Val ms s l).

(* A known boolean that an unknown, null or known boolean may turn out to be: the truth of it,
   null counting as false. *)
Definition may_be (v : value) (b : bool) : Prop :=
  match shape_of v with
  | SUnknown _ _ => True
  | SBool c => b = c
  | _ => b = false
  end.

(* An argument that coalesce passes over. *)
Definition passed_over (t : ty) (v : value) : Prop :=
  (exists u, shape_of v = SNull u) \/ (t = str /\ shape_of v = SStr "").

(* Equality of values without unknowns; the numbers are compared by the library. *)
Inductive equal_values (same_number : number -> number -> bool) : value -> value -> Prop :=
| eq_null ms ms' t t' l l' : equal_values same_number (Val ms (SNull t) l) (Val ms' (SNull t') l')
| eq_str ms ms' s : equal_values same_number (Val ms (SStr s) []) (Val ms' (SStr s) [])
| eq_num ms ms' n n' : same_number n n' = true ->
    equal_values same_number (Val ms (SNum n) []) (Val ms' (SNum n') [])
| eq_bool ms ms' b : equal_values same_number (Val ms (SBool b) []) (Val ms' (SBool b) [])
| eq_group ms ms' s l l' :
    match s with SList _ | SSet _ | SMap _ | STuple | SObj => True | _ => False end ->
    map fst l = map fst l' -> Forall2 (fun a b => equal_values same_number (snd a) (snd b)) l l' ->
    type_of (Val ms s l) = type_of (Val ms' s l') ->
    equal_values same_number (Val ms s l) (Val ms' s l').

(* The values whose key equals something in the search set, in order. *)
Inductive selected (sn : number -> number -> bool) (set : list (string * value))
  : list (string * value) -> list value -> list value -> Prop :=
| sel_nil : selected sn set [] [] []
| sel_in n k ks v vs out : (exists n' s, In (n', s) set /\ equal_values sn k s) ->
    selected sn set ks vs out -> selected sn set ((n, k) :: ks) (v :: vs) (v :: out)
| sel_out n k ks v vs out : (forall n' s, In (n', s) set -> ~ equal_values sn k s) ->
    selected sn set ks vs out -> selected sn set ((n, k) :: ks) (v :: vs) out.

(* ----- numerals ----- *)

(* The digits of a base are 0-9, then the letters; up to base 36 their case does not matter,
   above it the capitals come after the small letters. *)
Inductive digit_of (base : Z) : ascii -> Z -> Prop :=
| dg_digit n : n < 10 -> (Z.of_nat n < base)%Z -> digit_of base (ascii_of_nat (48 + n)) (Z.of_nat n)
| dg_small n : n < 26 -> (10 + Z.of_nat n < base)%Z -> digit_of base (ascii_of_nat (97 + n)) (10 + Z.of_nat n)%Z
| dg_either n : n < 26 -> (base <= 36)%Z -> (10 + Z.of_nat n < base)%Z ->
    digit_of base (ascii_of_nat (65 + n)) (10 + Z.of_nat n)%Z
| dg_capital n : n < 26 -> (36 < base)%Z -> (36 + Z.of_nat n < base)%Z ->
    digit_of base (ascii_of_nat (65 + n)) (36 + Z.of_nat n)%Z.
Fixpoint place_value (base : Z) (ds : list Z) : Z :=
  match ds with [] => 0%Z | d :: ds' => d * base ^ Z.of_nat (List.length ds') + place_value base ds' end.
Inductive natural (base : Z) : string -> Z -> Prop :=
| nat_digits s ds : s <> "" -> Forall2 (digit_of base) (list_ascii_of_string s) ds ->
    natural base s (place_value base ds).
Inductive numeral (base : Z) : string -> Z -> Prop :=
| num_plain s z : natural base s z -> numeral base s z
| num_plus s z : natural base s z -> numeral base ("+" +++ s) z
| num_minus s z : natural base s z -> numeral base ("-" +++ s) (- z)%Z.

(* The whole number of 64 bits that a number is. *)
Definition number_is (n : number) (z : Z) : Prop :=
  (exists p d, n = Fin p d /\ num d = (z * 2 ^ Z.of_nat (den d))%Z) /\ (- 2 ^ 63 <= z < 2 ^ 63)%Z.

(* ----- texts ----- *)

(* r is s with sub replaced by by_, from the left, where occurrences do not overlap. *)
Inductive replaced (sub by_ : string) : string -> string -> Prop :=
| rp_end : replaced sub by_ "" ""
| rp_here s r : replaced sub by_ s r -> replaced sub by_ (sub +++ s) (by_ +++ r)
| rp_next c s r : (forall q, String c s <> sub +++ q) -> replaced sub by_ s r ->
    replaced sub by_ (String c s) (String c r).

(* ----- lengths ----- *)

(* The number of elements, where it is known; that of tuples and objects is in their type. *)
Inductive length_is (graphemes : string -> Z) : value -> Z -> Prop :=
| len_str ms s : length_is graphemes (Val ms (SStr s) []) (graphemes s)
| len_list ms t l : length_is graphemes (Val ms (SList t) l) (Z.of_nat (List.length l))
| len_map ms t l : length_is graphemes (Val ms (SMap t) l) (Z.of_nat (List.length l))
| len_set ms t l : List.length l <= 1 \/ wholly_known (Val ms (SSet t) l) = true ->
    length_is graphemes (Val ms (SSet t) l) (Z.of_nat (List.length l))
| len_tuple ms l : length_is graphemes (Val ms STuple l) (Z.of_nat (List.length l))
| len_obj ms l : length_is graphemes (Val ms SObj l) (Z.of_nat (List.length l))
| len_typed ms k ts p : k = KTuple \/ k = KObj ->
    length_is graphemes (Val ms (SUnknown (Ty k ts) p) []) (Z.of_nat (List.length ts)).
Inductive length_unknown : value -> Prop :=
| lu_kind ms k ts p : k = KDyn \/ k = KStr \/ k = KList \/ k = KMap \/ k = KSet ->
    length_unknown (Val ms (SUnknown (Ty k ts) p) [])
| lu_set ms t l : 1 < List.length l -> wholly_known (Val ms (SSet t) l) = false -> length_unknown (Val ms (SSet t) l).

(* ----- completions ----- *)

(* What a value may turn out to be: its unknown parts become values of their type, texts with the
   known prefix.  Elements of a set may turn out to be one.  Marks do not matter. *)
Inductive completes : value -> value -> Prop :=
| cp_unknown ms t p v : conforms (type_of v) t = true -> (forall s, shape_of v = SStr s -> prefix p s = true) ->
    completes (Val ms (SUnknown t p) []) v
| cp_same ms ms' s l l' : (forall t p, s <> SUnknown t p) ->
    (forall t, s = SSet t -> wholly_known (Val ms s l) = true) ->
    Forall2 (fun a b => fst a = fst b /\ completes (snd a) (snd b)) l l' ->
    completes (Val ms s l) (Val ms' s l')
| cp_set ms ms' t l l' : wholly_known (Val ms (SSet t) l) = false ->
    List.length l' <= List.length l -> l' <> [] ->
    (forall b, In b l' -> exists a, In a l /\ completes (snd a) (snd b)) ->
    completes (Val ms (SSet t) l) (Val ms' (SSet t) l').
Definition completion (v v' : value) : Prop := completes v v' /\ typed v' /\ wholly_known v' = true.
(* The type is known. *)
Definition fixed (v : value) : Prop := has_dyn (type_of v) = false.
(* The sets in it are known. *)
Inductive closed_sets : value -> Prop :=
| cs ms s l : (forall t, s = SSet t -> wholly_known (Val ms s l) = true) ->
    (forall k v, In (k, v) l -> closed_sets v) -> closed_sets (Val ms s l).

(* An answer for some values, and the answer once they are complete: errors stay, and what is
   known stays; where nothing was known there may be an error. *)
Definition final (before after : result value) : Prop :=
  match before with
  | Ok r => (exists r', after = Ok r' /\ completes r r') \/ (is_known r = false /\ exists e, after = Err e)
  | Err _ => exists e, after = Err e
  | Panic _ => False
  end.
(* So it is for conversions, whose results have the type that was asked for. *)
Definition convert_final (convert : value -> ty -> result value) : Prop :=
  (forall v v' t, completion v v' -> final (convert v t) (convert v' t)) /\
  (forall v t r, convert v t = Ok r -> conforms (type_of r) t = true).
