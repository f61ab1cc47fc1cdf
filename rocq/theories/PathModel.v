(* Model of internal/lang/funcs/filesystem.go, without templatefile and fileset, and of the file
   hash functions of crypto.go, with the parts of path/filepath, os and go-homedir they rest on.

   Simplifications.  Paths are those of Unix.  The file system has no symbolic links and does not
   change: a path names a place, found name by name from the working directory, and what is there
   is a parameter.  Errors of an argument lose its number.  The library is described from
   knowledge of it. *)

From Verif Require Import Base CtyModel FuncModel EncModel.

(* ----- path/filepath (library) ----- *)

Definition slash : ascii := "/".
Definition is_abs (p : string) : bool := match p with String c _ => Ascii.eqb c slash | "" => false end.
(* the parts of a path between its slashes *)
Fixpoint split_path (p : string) : list string :=
  match p with
  | "" => [""]
  | String c p' =>
    match split_path p' with
    | n :: l => if Ascii.eqb c slash then "" :: n :: l else String c n :: l
    | [] => []
    end
  end.
Fixpoint join_path (l : list string) : string :=
  match l with
  | [] => ""
  | [n] => n
  | n :: l' => n +++ String slash (join_path l')
  end.
(* Clean: the parts written so far, the last one first, and the next part.  The library works in
   place on the bytes. *)
Definition clean_part (rooted : bool) (out : list string) (n : string) : list string :=
  if String.eqb n "" || String.eqb n "." then out
  else if String.eqb n ".." then
    match out with
    | [] => if rooted then [] else [".."]
    | top :: out' => if String.eqb top ".." then ".." :: out else out'
    end
  else n :: out.
Definition clean (p : string) : string :=
  let rooted := is_abs p in
  let out := rev (fold_left (clean_part rooted) (split_path p) []) in
  if rooted then String slash (join_path out)
  else match out with [] => "." | _ => join_path out end.
(* Join: empty elements are left out *)
Definition path_join (a b : string) : string :=
  if String.eqb a "" then (if String.eqb b "" then "" else clean b)
  else clean (a +++ String slash b).
(* what is before and after the last slash, the slash with the former *)
Fixpoint cut_last (p : string) : string * string :=
  match p with
  | "" => ("", "")
  | String c p' =>
    let (d, b) := cut_last p' in
    if String.eqb d "" then (if Ascii.eqb c slash then (String c "", b) else ("", String c b))
    else (String c d, b)
  end.
Definition path_dir (p : string) : string := clean (fst (cut_last p)).
Fixpoint strip_slashes (p : string) : string :=
  match p with
  | "" => ""
  | String c p' => match strip_slashes p' with "" => if Ascii.eqb c slash then "" else String c "" | r => String c r end
  end.
Definition path_base (p : string) : string :=
  if String.eqb p "" then "."
  else match snd (cut_last (strip_slashes p)) with "" => String slash "" | b => b end.

Section Path.
Variable nfc : string -> string.
Variable quoted : string -> string.
(* os.Getwd, as an absolute path; homedir.Dir, which may fail *)
Variable cwd : string.
Variable home : result string.

(* homedir.Expand (library) *)
Definition expand (p : string) : result string :=
  match p with
  | String "~" "" => do d <- home; Ok (path_join d "")
  | String "~" (String c p') =>
    if Ascii.eqb c slash || Ascii.eqb c "\" then do d <- home; Ok (path_join d (String c p'))
    else Err "cannot expand user-specific home dir"
  | _ => Ok p
  end.
(* filepath.Abs (library) *)
Definition path_abs (p : string) : string := if is_abs p then clean p else path_join cwd p.

(* BasenameFunc, DirnameFunc, AbsPathFunc, PathExpandFunc, filesystem.go:339-400 *)
Definition basename_func : func := on_string nfc path_base.
Definition dirname_func : func := on_string nfc path_dir.
Definition abspath_func : func := on_string nfc path_abs.
Definition pathexpand_func : func := mkFunc [plain_param str] None (static str)
  (fun args _ => match args with
   | [v] => do s <- as_string v; do p <- expand s; Ok (string_val nfc p)
   | _ => bad_args
   end).

(* ----- files ----- *)

(* What os.Open and reading to the end give: nothing there, some other error of either, which
   names the path, or the bytes. *)
Inductive opened := Missing | Failed (msg : string) | Unreadable (msg : string) | Bytes (b : string).
(* What os.Stat gives. *)
Inductive stat := NoFile | StatFailed | Regular | Directory | Device | Pipe | Socket | Irregular.
Variable open_path : string -> opened.
Variable stat_path : string -> stat.

(* filesystem.go:403-413, and 211-221 *)
Definition full_path (base p : string) : result string :=
  match expand p with
  | Ok q => Ok (clean (if is_abs q then q else path_join base q))
  | Err e => Err ("failed to expand ~: " +++ e)
  | Panic e => Panic e
  end.
(* readFileBytes with openFile, filesystem.go:402-434 *)
Definition hint : string := "; this function works only with files that are distributed as part of the configuration source code, so if this file will be created by a resource in this configuration you must instead obtain this result from an attribute of that resource".
Definition read_file (base p : string) (ms : list mark) : result string :=
  do q <- full_path base p;
  match open_path q with
  | Missing => Err ("no file exists at " +++ redact quoted p ms +++ hint)
  | Failed msg => Err msg
  | Unreadable msg => Err ("failed to read file: " +++ msg)
  | Bytes b => Ok b
  end.
Definition marked_path : param := mkParam str false false false true.
(* MakeFileFunc, filesystem.go:25-57 *)
Definition file_func (base : string) (enc_base64 : bool) : func := mkFunc [marked_path] None (static str)
  (fun args _ => match args with
   | [v] =>
     do p <- as_string (unmark v);
     do src <- read_file base p (marks_of v);
     if enc_base64 then Ok (with_marks (marks_of v) (string_val nfc (encode64 src)))
     else if negb (utf8_valid src)
     then Err ("contents of " +++ redact quoted p (marks_of v) +++ " are not valid UTF-8; use the filebase64 function to obtain the Base64 encoded contents or the other file functions (e.g. filemd5, filesha256) to obtain file hashing results instead")
     else Ok (with_marks (marks_of v) (string_val nfc src))
   | _ => bad_args
   end).
(* makeFileHashFunction, crypto.go:244-271 *)
Definition file_hash_func (base : string) (h enc : string -> string) : func := mkFunc [plain_param str] None (static str)
  (fun args _ => match args with
   | [v] =>
     do p <- as_string v;
     do q <- full_path base p;
     match open_path q with
     | Missing => Err ("open " +++ q +++ ": no such file or directory")
     | Failed msg | Unreadable msg => Err msg
     | Bytes b => Ok (string_val nfc (enc (h b)))
     end
   | _ => bad_args
   end).
(* MakeFileExistsFunc, filesystem.go:196-260 *)
Definition fileexists_func (base : string) : func := mkFunc [marked_path] None (static boolt)
  (fun args _ => match args with
   | [v] =>
     do p <- as_string (unmark v);
     do q <- full_path base p;
     let name := redact quoted q (marks_of v) in
     match stat_path q with
     | NoFile => Ok (with_marks (marks_of v) (bool_val false))
     | StatFailed => Err ("failed to stat " +++ name)
     | Regular => Ok (with_marks (marks_of v) (bool_val true))
     | Directory => Err (name +++ " is a directory, not a file")
     | Device => Err (name +++ " is a device node, not a regular file")
     | Pipe => Err (name +++ " is a named pipe, not a regular file")
     | Socket => Err (name +++ " is a unix domain socket, not a regular file")
     | Irregular => Err (name +++ " is not a regular file")
     end
   | _ => bad_args
   end).
End Path.
