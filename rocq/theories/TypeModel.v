(* Model of the function type: internal/lang/funcs/conversion.go:102-120, with the mark of
   internal/lang/marks/marks.go:42-45 and Has of lines 19-22.

   Simplification: a capsule stands for the type it holds; the library compares the pointers to
   them, so that there two results are not equal even if they hold one type. *)

From Coq Require Import List String.
From Verif Require Import Base FuncModel.
Import ListNotations.
Local Open Scope string_scope.

(* TypeType and Has, marks.go:42-45 and 19-22 *)
Definition type_mark : mark := "TypeType".
Definition has (v : value) (m : mark) : bool := has_mark m (marks_of v).

Section Type_func.
(* types.TypeType, and cty.CapsuleVal of it, internal/lang/types/type_type.go:12-15 (library) *)
Variable type_type : ty.
Variable capsule : ty -> shape.

(* TypeFunc, conversion.go:105-120 *)
Definition type_func : func := mkFunc [mkParam dyn true true true false] None
  (fun _ => Ok type_type)
  (fun args _ => match args with
   | [v] => Ok (with_marks [type_mark] (plain (capsule (type_of v))))
   | _ => bad_args
   end).
End Type_func.
