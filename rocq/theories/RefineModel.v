(* Model of the refinement that most functions give to their results (refinements.go). *)
From Coq Require Import List String Bool.
From Verif Require Import Base FuncModel.
Import ListNotations.
Local Open Scope string_scope.

(* The functions with RefineResult: refineNotNull, by the names they are described under:
   cidr.go:31,61,94,133, collection.go:38,76,106,155,189,354,499,569, crypto.go:32,54,109,157,233
   (hashes of texts),253 (of files), datetime.go:18,49,77, encoding.go:30,55,74,118,162,190,
   filesystem.go:35 (file, filebase64),206,279,347,363,378,394, number.go:28,57,83,121,
   string.go:29,78,109. *)
Definition refined : list string :=
  ["cidrhost"; "cidrnetmask"; "cidrsubnet"; "cidrsubnets";
   "length"; "alltrue"; "anytrue"; "coalesce"; "index"; "matchkeys"; "sum"; "transpose";
   "uuid"; "uuidv5"; "bcrypt"; "rsadecrypt";
   "base64sha256"; "base64sha512"; "md5"; "sha1"; "sha256"; "sha512";
   "filebase64sha256"; "filebase64sha512"; "filemd5"; "filesha1"; "filesha256"; "filesha512";
   "timestamp"; "timeadd"; "timecmp";
   "base64decode"; "base64encode"; "textencodebase64"; "textdecodebase64"; "base64gzip"; "urlencode";
   "file"; "filebase64"; "fileexists"; "fileset"; "basename"; "dirname"; "abspath"; "pathexpand";
   "log"; "pow"; "signum"; "parseint"; "startswith"; "endswith"; "replace"].

(* Value.RefineWith(refineNotNull), refinements.go:10-12 (RefinementBuilder.NotNull, library): a
   null cannot be refined, and the panic is outside of what Function.Call catches.  That an unknown
   value is known not to be null is not kept in the model. *)
Definition refine_not_null (v : value) : result value :=
  if is_null v then Panic "refining null value as non-null" else Ok v.

(* Function.Call with the refinement at its end (library): the result is refined however it came
   about, unless it is unknown and of unknown type. *)
Definition call_refined (early_marks : list (param * value) -> list mark) (name : string) (f : func) (args : list value)
  : result value :=
  do r <- call early_marks f args;
  if existsb (String.eqb name) refined && (is_known r || negb (ty_eqb (type_of r) dyn))
  then refine_not_null r else Ok r.
