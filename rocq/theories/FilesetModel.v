(* Model of fileset, internal/lang/funcs/filesystem.go:262-335, with filepath.Rel.

   Simplifications.  Those of PathModel.v.  The search for a pattern (doublestar.Glob, a library)
   and what is found at a path are parameters. *)

From Verif Require Import Base CtyModel FuncModel EncModel PathModel.

(* ----- filepath.Rel (library) ----- *)

(* The names of a path that Clean gave, without a slash at its start. *)
Definition rel_names (p : string) : list string :=
  match p with
  | "" => []
  | String c p' => if Ascii.eqb c slash then (if String.eqb p' "" then [] else split_path p') else split_path p
  end.
Fixpoint strip_common (b t : list string) : list string * list string :=
  match b, t with
  | x :: b', y :: t' => if String.eqb x y then strip_common b' t' else (b, t)
  | _, _ => (b, t)
  end.
(* An error if the way from the one to the other depends on where they start.  The library works
   on the bytes. *)
Definition path_rel (base targ : string) : result string :=
  let b := clean base in
  let t := clean targ in
  let fail := Err ("Rel: can't make " +++ targ +++ " relative to " +++ base) in
  if String.eqb t b then Ok "."
  else if negb (Bool.eqb (is_abs b) (is_abs t)) then fail
  else
    let (bs, ts) := strip_common (if String.eqb b "." then [] else rel_names b) (rel_names t) in
    match bs with
    | n :: _ => if String.eqb n ".." then fail else Ok (join_path (map (fun _ => "..") bs ++ ts)%list)
    | [] => Ok (join_path ts)
    end.

Section Fileset.
Variable nfc : string -> string.
Variable quoted : string -> string.
(* doublestar.Glob: the paths that fit a pattern *)
Variable glob : string -> result (list string).
(* os.Stat, and the message of its error, which names the path *)
Variable stat_path : string -> stat.
Variable stat_error : string -> string.

(* cty.SetVal of texts: each one once.  Simplification: in the order of their last use. *)
Fixpoint once (l : list string) : list string :=
  match l with
  | [] => []
  | s :: l' => if existsb (String.eqb s) l' then once l' else s :: once l'
  end.
Definition text_set (l : list string) : value := Val [] (SSet str) (named (map str_val (once l))).

(* the loop, filesystem.go:302-326; match is empty after an error of Rel *)
Fixpoint match_names (ms : list mark) (dir : string) (l : list string) : result (list string) :=
  match l with
  | [] => Ok []
  | m :: l' =>
    match stat_path m with
    | NoFile | StatFailed => Err ("failed to stat " +++ redact quoted m ms +++ ": " +++ stat_error m)
    | Regular =>
      match path_rel dir m with
      | Ok r => do rest <- match_names ms dir l'; Ok (nfc r :: rest)
      | Err e => Err ("failed to trim path of match " +++ redact quoted "" ms +++ ": " +++ e)
      | Panic p => Panic p
      end
    | _ => match_names ms dir l'
    end
  end.
(* MakeFileSetFunc, filesystem.go:264-335 *)
Definition fileset_func (base : string) : func := mkFunc [marked_path; marked_path] None (static (Ty KSet [("", str)]))
  (fun args _ => match args with
   | [v; w] =>
     do path <- as_string (unmark v);
     do pattern <- as_string (unmark w);
     let ms := (marks_of v ++ marks_of w)%list in
     let dir := if is_abs path then path else path_join base path in
     let full := path_join dir pattern in
     match glob full with
     | Ok found => do names <- match_names ms dir found; Ok (with_marks ms (text_set names))
     | Err e => Err ("failed to glob pattern " +++ redact quoted full ms +++ ": " +++ e)
     | Panic p => Panic p
     end
   | _ => bad_args
   end).
End Fileset.
