(* Model of the functions tostring, tonumber and tobool: MakeToFunc of
   internal/lang/funcs/conversion.go with the conversions of go-cty between the primitive types,
   and of the functions list and map (collection.go).

   Simplifications.  Zero has no sign.  What is marked (library) is written from knowledge of
   go-cty and math/big. *)

From Verif Require Import Base CtyModel HclModel FuncModel.

(* Float.Parse (library) with the base 10 and 512 bits, in steps: each gives what it has read and
   the rest of the text.  Digits: the number with the digits of before, and how many there are. *)
Fixpoint take_digits (m n : Z) (s : string) : Z * Z * string :=
  match s with
  | String c r => if digit_char c then take_digits (m * 10 + HclModel.digit_value c) (n + 1) r else (m, n, s)
  | "" => (m, n, "")
  end.
Definition take_sign (s : string) : bool * string :=
  match s with
  | String "-" r => (true, r)
  | String "+" r => (false, r)
  | _ => (false, s)
  end.
(* nat.scan: digits with at most one point among them; the digits after it are counted. *)
Definition take_mantissa (s : string) : option (Z * Z * string) :=
  let '(m, n, r) := take_digits 0 0 s in
  let '(m, k, r) := match r with String "." q => take_digits m 0 q | _ => (m, 0%Z, r) end in
  if (n + k =? 0)%Z then None else Some (m, k, r).
(* scanExponent: an exponent of ten or of two, which must be an int64. *)
Definition take_exponent (s : string) : option (Z * Z * string) :=
  match s with
  | String c q =>
    let ten := Ascii.eqb c "e" || Ascii.eqb c "E" in
    let two := Ascii.eqb c "p" || Ascii.eqb c "P" in
    if ten || two then
      let (neg, q) := take_sign q in
      let '(x, n, r) := take_digits 0 0 q in
      let z := if neg then (- x)%Z else x in
      if (n =? 0)%Z || (z <? min_int64)%Z || (max_int64 <? z)%Z then None
      else Some (if ten then (z, 0%Z, r) else (0%Z, z, r))
    else Some (0%Z, 0%Z, s)
  | "" => Some (0%Z, 0%Z, "")
  end.
Definition infinity (s : string) : option bool :=
  if String.eqb s "Inf" || String.eqb s "inf" || String.eqb s "+Inf" || String.eqb s "+inf" then Some false
  else if String.eqb s "-Inf" || String.eqb s "-inf" then Some true
  else None.

Section Cast.
(* The number for a mantissa and exponents of ten and two that are far out: the power of five is
   then rounded itself, or the exponent does not fit into 32 bits. *)
Variable far : bool -> Z -> Z -> Z -> option number.
(* Float.Text('f', -1) of a number that is not whole, or whole with more bits than its precision *)
Variable far_text : Z -> dyadic -> string.

Definition close (m t b : Z) : bool :=
  (Z.abs t <=? 248)%Z && (Z.abs (Z.log2 m + 1 + t + b) <=? 2 ^ 30)%Z.
(* m * 10^t * 2^b, rounded to 512 bits *)
Definition scaled (m t b : Z) : dyadic :=
  ratio 512 (m * (10 ^ Z.max 0 t * 2 ^ Z.max 0 b)) (10 ^ Z.max 0 (- t) * 2 ^ Z.max 0 (- b)).
(* big.ParseFloat(s, 10, 512, ToNearestEven), as cty.ParseNumberVal calls it (library) *)
Definition parse_float (s : string) : option number :=
  match infinity s with
  | Some neg => Some (Inf neg)
  | None =>
    let (neg, r) := take_sign s in
    match take_mantissa r with
    | None => None
    | Some (m, k, r) =>
      match take_exponent r with
      | Some (x, b, "") =>
        if (m =? 0)%Z then Some (Fin 512 (mkD 0 0))
        else if close m (x - k) b then
          let d := scaled m (x - k) b in
          Some (Fin 512 (mkD (if neg then - num d else num d) (den d)))
        else far neg m (x - k) b
      | _ => None
      end
    end
  end.

(* Float.Text('f', -1): the shortest decimal text that reads as the number (library).  For a
   whole number within the precision that is the number. *)
Definition number_text (n : number) : string :=
  match n with
  | Inf neg => if neg then "-Inf" else "+Inf"
  | Fin p d =>
    let q := Z.quot (num d) (pow2 (den d)) in
    if (q * pow2 (den d) =? num d)%Z && (Z.abs q <? 2 ^ p)%Z then dec_Z q else far_text p d
  end.

(* convert.GetConversionUnsafe to a primitive type (library): is there a conversion *)
Definition castable (t want : ty) : bool :=
  match kind_of t, kind_of want with
  | KDyn, _ | KStr, KNum | KStr, KBool | KNum, KStr | KBool, KStr => true
  | _, _ => false
  end.
(* primitiveConversionsSafe and primitiveConversionsUnsafe (library) *)
Definition cast_shape (s : shape) (want : kind) : result shape :=
  match s, want with
  | SStr x, KNum => match parse_float x with Some n => Ok (SNum n) | None => Err "a number is required" end
  | SStr x, KBool =>
    if String.eqb x "true" || String.eqb x "1" then Ok (SBool true)
    else if String.eqb x "false" || String.eqb x "0" then Ok (SBool false)
    else Err "a bool is required"
  | SNum n, KStr => Ok (SStr (number_text n))
  | SBool b, KStr => Ok (SStr (if b then "true" else "false"))
  | _, _ => Err "no conversion"
  end.
(* convert.Convert to a primitive type (library): the marks stay *)
Definition cast (v : value) (want : ty) : result value :=
  if ty_eqb (type_of v) want then Ok v
  else if negb (castable (type_of v) want) then Err "mismatch"
  else
    do s <- match shape_of v with
            | SUnknown _ _ => Ok (SUnknown want "")
            | SNull _ => Ok (SNull want)
            | s => cast_shape s (kind_of want)
            end;
    Ok (with_marks (marks_of v) (plain s)).

(* tostring, tonumber and tobool, functions.go:99-101; strconv.Quote and Type.FriendlyName are
   parameters. *)
Definition to_primitive (quoted : string -> string) (friendly : ty -> string) (want : ty) : func :=
  to_func cast quoted friendly castable want.
End Cast.

(* ListFunc and MapFunc, collection.go:618-654 *)
Definition gone_func (message : string) : func :=
  mkFunc [] (Some all_param) (fun _ => Err message) (fun _ _ => Err message).
Definition list_func : func := gone_func
  "the ""list"" function was deprecated in Terraform v0.12 and is no longer available; use tolist([ ... ]) syntax to write a literal list".
Definition map_func : func := gone_func
  "the ""map"" function was deprecated in Terraform v0.12 and is no longer available; use tomap({ ... }) syntax to write a literal map".
