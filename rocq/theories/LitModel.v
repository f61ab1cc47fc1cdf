(* Model of CtyToExpression, utils/util.go:15-38, with the evaluation of what it makes. *)

From Verif Require Import Base FuncModel.

(* LiteralValueExpr, TupleConsExpr and ObjectConsExpr (library), the elements and keys of the
   latter two being literals.  Ranges in the source are left out. *)
Inductive lit_expr :=
| LValue (v : value)
| LTuple (l : list value)
| LObject (l : list (string * value)).

(* The cases of the switch at util.go:16, with == of cty types. *)
Definition one_of (t : ty) (l : list ty) : bool := existsb (ty_eqb t) l.

(* Value.AsValueSlice and AsValueMap (library) of a list or map: the elements of a value without
   marks that is known and not null. *)
Definition as_values (v : value) : result (list (string * value)) :=
  match v with
  | Val [] (SList _ | SMap _) l => Ok l
  | Val [] (SUnknown _ _) _ => Panic "value is not known"
  | Val [] (SNull _) _ => Panic "value is null"
  | Val [] _ _ => Panic "not a list or map"
  | Val _ _ _ => Panic "value is marked, so must be unmarked first"
  end.

(* CtyToExpression, utils/util.go:15-38; pick is the order of the loop over a Go map at 27. *)
Definition cty_to_expression (pick : list (string * value) -> list (string * value)) (cv : value) : result lit_expr :=
  let t := type_of cv in
  if one_of t [str; numt; boolt] then Ok (LValue cv)                                                   (* 17-18 *)
  else if one_of t [list_of str; list_of numt; list_of boolt] then do l <- as_values cv; Ok (LTuple (map snd l))   (* 19-24 *)
  else if one_of t [map_of str; map_of numt; map_of boolt] then do l <- as_values cv; Ok (LObject (pick l))        (* 25-33 *)
  else Ok (LValue cv).                                                                                 (* 37 *)

(* Expression.Value (library) of these: an object is built key by key. *)
Definition lit_value (e : lit_expr) : value :=
  match e with
  | LValue v => v
  | LTuple l => Val [] STuple (named l)
  | LObject l => Val [] SObj (fold_left (fun m kv => insert (fst kv) (snd kv) m) l [])
  end.
