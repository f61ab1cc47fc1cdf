(* Model of CtyToNative, utils/util.go:226-280, on all values: CtyModel.v leaves out unknown
   values and marks. *)

From Verif Require Import Base CtyModel FuncModel.

(* CtyNumberToNative, util.go:203-224, of a known number without marks.  Of minus infinity Int64 is
   above and Int none, so gocty refuses it (library). *)
Definition number_to_native (n : number) : result native :=
  match n with
  | Fin _ d => cty_number_to_native d
  | Inf false => Ok NInf32
  | Inf true => Err "value must be a whole number"
  end.

(* The loop over a Go map, util.go:249-261, and over a slice, util.go:265-274: it stops at the
   first conversion that fails and skips nil. *)
Fixpoint collect (l : list (string * result native)) : result (list (string * native)) :=
  match l with
  | [] => Ok []
  | (k, r) :: l => do x <- r; do u <- collect l; Ok (match x with NNil => u | _ => (k, x) :: u end)
  end.
Definition map_native (l : list (string * result native)) : result native :=
  do u <- collect l; Ok (match u with [] => NNilMap | _ => NMap u end).
Definition list_native (l : list (string * result native)) : result native :=
  do u <- collect l; Ok (match u with [] => NNilList | _ => NList (map snd u) end).

Section Native.
(* The order of the loop over a Go map, util.go:249. *)
Variable pick : list (string * result native) -> list (string * result native).

(* CtyToNative, util.go:226-280.  What the library does: gocty.FromCtyValue refuses unknown texts
   and booleans; AsString, True, AsBigFloat, AsValueMap and AsValueSlice panic on marks;
   AsBigFloat, AsValueMap and AsValueSlice panic on unknown values, but the latter two give nothing
   for an object type without attributes and a tuple type without elements. *)
Fixpoint value_to_native (v : value) : result native :=
  match v with
  | Val ms s l =>
    let rs := map (fun kv => (fst kv, value_to_native (snd kv))) l in
    let unmarked (r : result native) := match ms with [] => r | _ => Panic "value is marked, so must be unmarked first" end in
    match s with
    | SNull _ => Ok NNil                                                         (* 227-229 *)
    | SUnknown t _ =>
      match kind_of t with
      | KStr | KBool => Err "value must be known"                                (* 233-236, 239-242 *)
      | KNum => Panic "value is not known"                                       (* 237-238, 204 *)
      | KObj => unmarked (match ty_args t with [] => Ok NNilMap | _ => Panic "value is not known" end)
      | KTuple => unmarked (match ty_args t with [] => Ok NNilList | _ => Panic "value is not known" end)
      | KMap | KList | KSet => Panic "value is not known"
      | KDyn => Err "assumed primitive value not implemented"                    (* 279 *)
      end
    | SStr x => unmarked (Ok (NStr x))                                           (* 233-236 *)
    | SNum n => unmarked (number_to_native n)                                    (* 237-238 *)
    | SBool b => unmarked (Ok (NBool b))                                         (* 239-242 *)
    | SObj | SMap _ => unmarked (map_native (pick rs))                           (* 247-262 *)
    | SList _ | STuple | SSet _ => unmarked (list_native rs)                     (* 263-275 *)
    end
  end.
End Native.
