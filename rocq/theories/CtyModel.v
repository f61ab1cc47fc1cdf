(* Model of utils/util.go: CtyNumberToNative, CtyToNative, NativeToCty, with the parts of
   math/big, cty and gocty they use.  Those are not in the repository; the definitions
   marked "library" are an assumption about them.

   Simplifications: cty values are wholly known and unmarked; cty numbers and native floats
   are finite except for the float32 infinity; negative infinity and NaN are left out;
   native data are the JSON-like shapes plus
   the number types CtyNumberToNative returns. *)

From Verif Require Import Base.

(* A finite binary number: m / 2^k.  Every finite big.Float is one. *)
Record dyadic := mkD { num : Z; den : nat }.

Inductive accuracy := Below | Exact | Above.
(* Accuracy of the result a for the true value x, both over the same denominator. *)
Definition accuracy_of (a x : Z) : accuracy :=
  if (a <? x)%Z then Below else if (x <? a)%Z then Above else Exact.

Definition min_int64 : Z := - 2 ^ 63.
Definition max_int64 : Z := 2 ^ 63 - 1.

Definition pow2 (k : nat) : Z := 2 ^ Z.of_nat k.

(* big.Float.Int (library): truncation towards zero. *)
Definition big_int (d : dyadic) : Z * accuracy :=
  let t := Z.quot (num d) (pow2 (den d)) in (t, accuracy_of (t * pow2 (den d)) (num d)).

(* big.Float.Int64 (library): truncation, or the nearest limit. *)
Definition big_int64 (d : dyadic) : Z * accuracy :=
  if (num d <? min_int64 * pow2 (den d))%Z then (min_int64, Above)
  else if (max_int64 * pow2 (den d) <? num d)%Z then (max_int64, Below)
  else big_int d.

(* Rounding the positive mantissa m to a multiple of 2^s, to nearest, ties to even. *)
Definition round_mantissa (m s : Z) : Z :=
  if (s <=? 0)%Z then m
  else let q := (m / 2 ^ s)%Z in let r := (2 * (m mod 2 ^ s))%Z in
       let up := (2 ^ s <? r)%Z || ((r =? 2 ^ s)%Z && Z.odd q) in
       ((if up then q + 1 else q) * 2 ^ s)%Z.

(* A binary format: precision, exponent of the last place of the subnormals, and the
   exponent bound (values stay below 2^bound). *)
Record format := mkF { prec : Z; last_place : Z; bound : Z }.
Definition float32 : format := mkF 24 (-149) 128.
Definition float64 : format := mkF 53 (-1074) 1024.

(* big.Float.Float32 and Float64 (library): the nearest value of the format; None is an
   infinity. *)
Definition round_to (f : format) (d : dyadic) : option dyadic :=
  let a := Z.abs (num d) in
  let s := Z.max (Z.log2 a + 1 - prec f) (last_place f + Z.of_nat (den d)) in
  let r := round_mantissa a s in
  if (2 ^ (bound f + Z.of_nat (den d)) <=? r)%Z then None
  else Some (mkD (Z.sgn (num d) * r) (den d)).
Definition float_accuracy (f : format) (d : dyadic) : accuracy :=
  match round_to f d with
  | None => if (0 <? num d)%Z then Above else Below
  | Some r => accuracy_of (num r) (num d)
  end.

(* Native Go data.  The empty map and the nil map are different Go values. *)
Inductive native :=
| NNil
| NStr (s : string)
| NBool (b : bool)
| NInt (z : Z)
| NInt64 (z : Z)
| NF32 (d : dyadic)
| NInf32
| NF64 (d : dyadic)
| NNilMap
| NMap (m : list (string * native))
| NNilList
| NList (l : list native).

(* cty values.  Lists, sets and tuples behave alike here, and so do objects and maps. *)
Inductive cval :=
| CNull
| CStr (s : string)
| CBool (b : bool)
| CNum (d : dyadic)
| CInf
| CObj (m : list (string * cval))
| CTup (l : list cval).

(* gocty.FromCtyValue into *int64, *int, *float32 and *float64 (library). *)
Definition from_int (d : dyadic) : result Z :=
  match big_int64 d with
  | (z, Exact) => Ok z
  | _ => Err "value must be a whole number"
  end.
Definition from_float64 (d : dyadic) : result dyadic :=
  match round_to float64 d with Some r => Ok r | None => Err "value out of range" end.
(* The value goes through float64, and reflect's SetFloat on a float32 converts it without a
   range check: None is an infinity. *)
Definition from_float32 (d : dyadic) : result (option dyadic) :=
  do x <- from_float64 d; Ok (round_to float32 x).

Definition exact_or_above (a : accuracy) : bool := match a with Below => false | _ => true end.

(* CtyNumberToNative, util.go:203-224.  The value returned beside an error is dropped. *)
Definition cty_number_to_native (d : dyadic) : result native :=
  if exact_or_above (snd (big_int64 d)) then                                        (* 205-211 *)
    do x <- from_int d;
    Ok (if (2147483647 <? x)%Z || (x <? - 2147483648)%Z then NInt64 x else NInt x)
  else if exact_or_above (snd (big_int d)) then                                     (* 212-215 *)
    do x <- from_int d; Ok (NInt x)
  else if exact_or_above (float_accuracy float32 d) then                            (* 216-220 *)
    do x <- from_float32 d; Ok (match x with Some r => NF32 r | None => NInf32 end)
  else do x <- from_float64 d; Ok (NF64 x).                                         (* 221-223 *)

Section Convert.
(* Unicode normalisation (NFC), which cty applies to strings and attribute names. *)
Variable norm : string -> string.

(* NativeToCty, util.go:168-201.  The maps' iteration order is the list order; gocty's
   implied type conversion (196-200) is exact on the scalar kinds. *)
Fixpoint native_to_cty (v : native) : cval :=
  match v with
  | NNil => CObj []                                                                 (* 169-171 *)
  | NNilMap => CObj []
  | NMap m =>                                                                       (* 174-183 *)
    CObj (fold_left (fun h kv => insert (fst kv) (snd kv) h)
            (map (fun kv => (norm (fst kv), native_to_cty (snd kv))) m) [])
  | NNilList => CTup []
  | NList l => CTup (map native_to_cty l)                                           (* 184-193 *)
  | NStr s => CStr (norm s)
  | NBool b => CBool b
  | NInt z => CNum (mkD z 0)
  | NInt64 z => CNum (mkD z 0)
  | NF32 d => CNum d
  | NF64 d => CNum d
  | NInf32 => CInf
  end.

(* CtyToNative, util.go:226-280. *)
Fixpoint cty_to_native (v : cval) : result native :=
  match v with
  | CNull => Ok NNil                                                                (* 227-229 *)
  | CStr s => Ok (NStr s)
  | CNum d => cty_number_to_native d
  | CInf => Ok NInf32       (* Int64 and Int are Below, Float32 is Exact: 216-219 *)
  | CBool b => Ok (NBool b)
  | CObj m =>                                                                       (* 247-262 *)
    do u <- (fix go m := match m with
             | [] => Ok []
             | (k, v) :: m' =>
               do x <- cty_to_native v;
               do r <- go m';
               Ok (match x with NNil => r | _ => (k, x) :: r end)
             end) m;
    Ok (match u with [] => NNilMap | _ => NMap u end)
  | CTup l =>                                                                       (* 263-275 *)
    do u <- (fix go l := match l with
             | [] => Ok []
             | v :: l' =>
               do x <- cty_to_native v;
               do r <- go l';
               Ok (match x with NNil => r | _ => x :: r end)
             end) l;
    Ok (match u with [] => NNilList | _ => NList u end)
  end.
End Convert.
