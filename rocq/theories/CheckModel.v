(* Model of the types that functions announce for their results, and of the check that go-cty
   makes on what their code gives. *)
From Coq Require Import List String Bool.
From Verif Require Import Base FuncModel.
Import ListNotations.
Local Open Scope string_scope.

(* Function.ReturnTypeForValues (library): the type announced for arguments, which runs the Type
   functions of internal/lang/funcs (for instance collection.go:231-276). *)
Definition return_type (f : func) (args : list value) : result ty :=
  match pair_args (f_params f) (f_var f) args with
  | None => Err "wrong number of arguments"
  | Some l =>
    do stop <- check_args l;
    if stop : bool then Ok dyn else no_panic (f_type f (map seen l))
  end.

(* Function.Call (library) as call in FuncModel.v, with the check after the code of the function:
   a value that does not conform to the type announced is a panic, which is made an error. *)
Definition call_checked (early_marks : list (param * value) -> list mark) (f : func) (args : list value) : result value :=
  match pair_args (f_params f) (f_var f) args with
  | None => Err "wrong number of arguments"
  | Some l =>
    do stop <- check_args l;
    if stop : bool then Ok (with_marks (early_marks l) (unknown dyn))
    else
      let vs := map seen l in
      do t <- no_panic (f_type f vs);
      if existsb unknown_arg l then Ok (with_marks (early_marks l) (unknown t))
      else
        do r <- no_panic (do r <- f_impl f vs t;
                          if conforms (type_of r) t then Ok r else Panic "returned value does not conform to expected return type");
        Ok (with_marks (flat_map taken_marks l) r)
  end.
