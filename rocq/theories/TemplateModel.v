(* Model of templatefile, MakeTemplateFileFunc in internal/lang/funcs/filesystem.go:72-192.

   Simplifications.  Templates, their parsing, the names they refer to and their evaluation are
   parameters.  Of several bad variable names the first is reported.  The place of a reference in
   the message is left out. *)

From Verif Require Import Base CtyModel FuncModel EncModel PathModel.

Section Template.
Variable nfc : string -> string.
Variable quoted : string -> string.
Variable home : result string.
Variable open_path : string -> opened.
Variable early : list (param * value) -> list mark.
(* hclsyntax.ParseTemplate, Expression.Variables (the root names) and Value, ValidIdentifier
   (library) *)
Variable expr : Type.
Variable parse_template : string -> string -> result expr.
Variable references : expr -> list string.
Variable evaluate : expr -> list (string * value) -> list (string * func) -> result value.
Variable valid_identifier : string -> bool.

Definition params : list param := [marked_path; any_param].
(* loadTmpl, filesystem.go:86-100 *)
Definition load (base fn : string) (ms : list mark) : result expr :=
  do v <- call early (file_func nfc quoted home open_path base false) [with_marks ms (string_val nfc fn)];
  do src <- as_string v;
  parse_template src fn.
(* the functions of the template, filesystem.go:135-150 *)
Definition stub : func := mkFunc params None
  (fun _ => Err "cannot recursively call templatefile from inside templatefile call") (fun _ _ => Panic "no implementation").
Definition inner_functions (given : list (string * func)) : list (string * func) :=
  map (fun nf => if String.eqb (fst nf) "templatefile" || String.eqb (fst nf) "core::templatefile" then (fst nf, stub) else nf) given.
Fixpoint first_such (p : string -> bool) (l : list string) : option string :=
  match l with [] => None | n :: l' => if p n then Some n else first_such p l' end.
(* renderTmpl, filesystem.go:102-157 *)
Definition render (given : list (string * func)) (e : expr) (v : value) : result value :=
  match kind_of (type_of v) with
  | KMap | KObj =>
    do vars <- iterate v;
    match first_such (fun n => negb (valid_identifier n)) (keys vars) with
    | Some n => Err ("invalid template variable name " +++ quoted n +++ ": must start with a letter, followed by zero or more letters, digits, and underscores")
    | None =>
      match first_such (fun n => match lookup n vars with Some _ => false | None => true end) (references e) with
      | Some n => Err ("vars map does not contain key " +++ quoted n)
      | None => evaluate e vars (inner_functions given)
      end
    end
  | _ => Err "invalid vars value: must be a map"
  end.
(* filesystem.go:159-190 *)
Definition templatefile_func (base : string) (given : list (string * func)) : func := mkFunc params None
  (fun args => match args with
   | [p; v] =>
     if negb (is_known p && is_known v) then Ok dyn
     else
       do s <- as_string (unmark p);
       do e <- load base s (marks_of p);
       do r <- render given e v; Ok (type_of r)
   | _ => bad_args
   end)
  (fun args _ => match args with
   | [p; v] =>
     do s <- as_string (unmark p);
     do e <- load base s (marks_of p);
     do r <- render given e v; Ok (with_marks (marks_of p) r)
   | _ => bad_args
   end).
End Template.
