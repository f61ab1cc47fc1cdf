(* Model of the descriptions of functions, internal/lang/funcs/descriptions.go.

   Simplification: of a description only the number of its parameter descriptions is kept, since
   nothing depends on the texts. *)
From Coq Require Import List String Arith.
From Verif Require Import Base FuncModel.
Import ListNotations.
Local Open Scope string_scope.
Local Open Scope nat_scope.

(* DescriptionList, descriptions.go:29-534 *)
Definition descriptions : list (string * nat) := [
   ("abs", 1); ("abspath", 1); ("alltrue", 1); ("anytrue", 1); ("base64decode", 1);
   ("base64encode", 1); ("base64gzip", 1); ("base64sha256", 1); ("base64sha512", 1); ("basename", 1);
   ("bcrypt", 2); ("can", 1); ("ceil", 1); ("chomp", 1); ("chunklist", 2); ("cidrhost", 2);
   ("cidrnetmask", 1); ("cidrsubnet", 3); ("cidrsubnets", 2); ("coalesce", 1); ("coalescelist", 1);
   ("compact", 1); ("concat", 1); ("contains", 2); ("csvdecode", 1); ("dirname", 1); ("distinct", 1);
   ("element", 2); ("endswith", 2); ("file", 1); ("filebase64", 1); ("filebase64sha256", 1);
   ("filebase64sha512", 1); ("fileexists", 1); ("filemd5", 1); ("fileset", 2); ("filesha1", 1);
   ("filesha256", 1); ("filesha512", 1); ("flatten", 1); ("floor", 1); ("format", 2);
   ("formatdate", 2); ("formatlist", 2); ("indent", 2); ("index", 2); ("join", 2); ("jsondecode", 1);
   ("jsonencode", 1); ("keys", 1); ("length", 1); ("list", 1); ("log", 2); ("lookup", 3);
   ("lower", 1); ("map", 1); ("matchkeys", 3); ("max", 1); ("md5", 1); ("merge", 1); ("min", 1);
   ("nonsensitive", 1); ("one", 1); ("parseint", 2); ("pathexpand", 1); ("pow", 2); ("range", 1);
   ("regex", 2); ("regexall", 2); ("replace", 3); ("reverse", 1); ("rsadecrypt", 2);
   ("sensitive", 1); ("setintersection", 2); ("setproduct", 1); ("setsubtract", 2); ("setunion", 2);
   ("sha1", 1); ("sha256", 1); ("sha512", 1); ("signum", 1); ("slice", 3); ("sort", 1); ("split", 2);
   ("startswith", 2); ("strcontains", 2); ("strrev", 1); ("substr", 3); ("sum", 1);
   ("templatefile", 2); ("textdecodebase64", 2); ("textencodebase64", 2); ("timeadd", 2);
   ("timecmp", 2); ("timestamp", 0); ("plantimestamp", 0); ("title", 1); ("tobool", 1);
   ("tolist", 1); ("tomap", 1); ("tonumber", 1); ("toset", 1); ("tostring", 1); ("transpose", 1);
   ("trim", 2); ("trimprefix", 2); ("trimspace", 1); ("trimsuffix", 2); ("try", 1); ("type", 1);
   ("upper", 1); ("urlencode", 1); ("uuid", 0); ("uuidv5", 2); ("values", 1); ("yamldecode", 1);
   ("yamlencode", 1); ("zipmap", 2)].

(* function.Function.WithNewDescriptions (library): one text for each parameter and one for the
   further arguments, if there may be any *)
Definition described_params (f : func) : nat := List.length (f_params f) + match f_var f with Some _ => 1 | None => 0 end.
Definition with_new_descriptions (f : func) (texts : nat) : result func :=
  if texts =? described_params f then Ok f else Panic "wrong number of parameter descriptions".
(* WithDescription, descriptions.go:536-548 *)
Definition with_description (name : string) (f : func) : result func :=
  match lookup name descriptions with
  | None => Ok f
  | Some n => with_new_descriptions f n
  end.
