(* Model of log and pow, internal/lang/funcs/number.go:16-71.

   Simplification: a zero has no sign (math.Log gives no negative zero, and what math.Pow gives for
   one is a parameter). *)

From Verif Require Import Base CtyModel FuncModel.

(* float64 *)
Inductive float := FFin (d : dyadic) | FInf (negative : bool) | FNaN.
Definition float_zero (d : dyadic) : bool := (num d =? 0)%Z.
Definition float_neg (d : dyadic) : bool := (num d <? 0)%Z.

(* gocty.FromCtyValue into a float64 (library): an infinity is taken, a number that rounds to one
   is not. *)
Definition to_float (v : value) : result float :=
  match shape_of v with
  | SNum (Fin _ d) => do x <- from_float64 d; Ok (FFin x)
  | SNum (Inf n) => Ok (FInf n)
  | _ => Err "incorrect type"
  end.
(* cty.NumberFloatVal (library): big.Float.SetFloat64 gives precision 53 and panics for NaN. *)
Definition float_val (x : float) : result value :=
  match x with
  | FFin d => Ok (num_val (Fin 53 d))
  | FInf n => Ok (num_val (Inf n))
  | FNaN => Panic "Float.SetFloat64(NaN)"
  end.

Section Number.
(* math.Log and math.Pow (library), and the rounded quotient of two finite numbers other than 0 *)
Variable mlog : float -> float.
Variable mpow : float -> float -> float.
Variable quotient : dyadic -> dyadic -> float.

(* the division of float64 *)
Definition float_div (a b : float) : float :=
  match a, b with
  | FNaN, _ | _, FNaN => FNaN
  | FInf _, FInf _ => FNaN
  | FInf n, FFin d => FInf (xorb n (float_neg d))
  | FFin _, FInf _ => FFin (mkD 0 0)
  | FFin x, FFin y =>
    if float_zero y then if float_zero x then FNaN else FInf (float_neg x)
    else if float_zero x then FFin (mkD 0 0) else quotient x y
  end.

(* LogFunc, number.go:16-42 *)
Definition log_func : func := mkFunc [plain_param numt; plain_param numt] None (static numt)
  (fun args _ => match args with
   | [v; w] => do x <- to_float v; do b <- to_float w; float_val (float_div (mlog x) (mlog b))
   | _ => bad_args
   end).
(* PowFunc, number.go:45-71 *)
Definition pow_func : func := mkFunc [plain_param numt; plain_param numt] None (static numt)
  (fun args _ => match args with
   | [v; w] => do x <- to_float v; do p <- to_float w; float_val (mpow x p)
   | _ => bad_args
   end).
End Number.
