(* Model of NativeToCty, utils/util.go:168-201, on Go values of any type: CtyModel.v leaves out the
   typed slices, maps and pointers that gocty converts at 196-200. *)

From Verif Require Import Base CtyModel FuncModel.

(* Types of Go values.  Structs, arrays, cty.Value and big numbers are left out, as are map and slice types with
   a name of their own; maps with other keys than texts, channels and functions are GOther. *)
Inductive gtyp := GString | GBool | GInt | GFloat | GIface | GOther | GSlice (e : gtyp) | GMap (e : gtyp) | GPtr (e : gtyp).
(* A float64 or float32. *)
Inductive gfloat := FFin (d : dyadic) | FInf (negative : bool) | FNaN.
(* Go values with the types of their elements; None is nil. *)
Inductive gv :=
| VNil
| VStr (s : string)
| VBool (b : bool)
| VInt (z : Z)
| VFloat (f : gfloat)
| VSlice (e : gtyp) (l : option (list gv))
| VMap (e : gtyp) (m : option (list (string * gv)))
| VPtr (e : gtyp) (x : option gv)
| VOther.

(* gocty.ImpliedType (library) *)
Fixpoint implied (k : gtyp) : option ty :=
  match k with
  | GString => Some str
  | GBool => Some boolt
  | GInt | GFloat => Some numt
  | GSlice e => match implied e with Some t => Some (list_of t) | None => None end
  | GMap e => match implied e with Some t => Some (map_of t) | None => None end
  | GPtr e => implied e
  | GIface | GOther => None
  end.
(* reflect.TypeOf *)
Definition type_of_gv (v : gv) : gtyp :=
  match v with
  | VNil => GIface
  | VStr _ => GString
  | VBool _ => GBool
  | VInt _ => GInt
  | VFloat _ => GFloat
  | VSlice e _ => GSlice e
  | VMap e _ => GMap e
  | VPtr e _ => GPtr e
  | VOther => GOther
  end.

(* A loop that stops at the first failure. *)
Fixpoint all_results (l : list (string * result value)) : result (list (string * value)) :=
  match l with
  | [] => Ok []
  | (k, r) :: l => do x <- r; do u <- all_results l; Ok ((k, x) :: u)
  end.
(* Entries put into a Go map one after the other. *)
Definition put_all (l : list (string * value)) : list (string * value) :=
  fold_left (fun m kv => insert (fst kv) (snd kv) m) l [].
Definition type_or_dyn (k : gtyp) : ty := match implied k with Some t => t | None => dyn end.

Section ToCty.
(* Unicode normalisation, which cty applies to texts and keys. *)
Variable norm : string -> string.

(* gocty.ToCtyValue (library) with the type gocty.ImpliedType gave: nil is null; big.Float panics on
   NaN; an integer has precision 64 and a float 53. *)
Fixpoint to_cty_value (v : gv) : result value :=
  match v with
  | VStr s => Ok (str_val (norm s))
  | VBool b => Ok (bool_val b)
  | VInt z => Ok (num_val (int_val z))
  | VFloat (FFin d) => Ok (num_val (Fin 53 d))
  | VFloat (FInf b) => Ok (num_val (Inf b))
  | VFloat FNaN => Panic "NaN"
  | VSlice e None => Ok (plain (SNull (type_or_dyn (GSlice e))))
  | VSlice e (Some l) => do u <- all_results (map (fun x => ("", to_cty_value x)) l); Ok (Val [] (SList (type_or_dyn e)) u)
  | VMap e None => Ok (plain (SNull (type_or_dyn (GMap e))))
  | VMap e (Some m) =>
    do u <- all_results (map (fun kv => (norm (fst kv), to_cty_value (snd kv))) m); Ok (Val [] (SMap (type_or_dyn e)) (put_all u))
  | VPtr e None => Ok (plain (SNull (type_or_dyn (GPtr e))))
  | VPtr _ (Some x) => to_cty_value x
  | VNil | VOther => Err "no cty.Type"
  end.

(* NativeToCty, util.go:168-201.  Lists of entries are in the order of the loop over the Go map;
   cty.ObjectVal normalises the names (library). *)
Fixpoint go_to_cty (v : gv) : result value :=
  match v with
  | VNil => Ok (Val [] SObj [])                                                         (* 169-171 *)
  | VMap GIface None => Ok (Val [] SObj [])
  | VMap GIface (Some m) =>                                                             (* 174-183 *)
    do u <- all_results (map (fun kv => (norm (fst kv), go_to_cty (snd kv))) m); Ok (Val [] SObj (put_all u))
  | VSlice GIface None => Ok (Val [] STuple [])
  | VSlice GIface (Some l) =>                                                           (* 184-193 *)
    do u <- all_results (map (fun x => ("", go_to_cty x)) l); Ok (Val [] STuple u)
  | _ => match implied (type_of_gv v) with
         | None => Err "no cty.Type"                                                    (* 196-199 *)
         | Some _ => to_cty_value v                                                     (* 200 *)
         end
  end.
End ToCty.
