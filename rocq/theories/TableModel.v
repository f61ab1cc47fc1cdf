(* Model of the table of functions, internal/lang/functions.go:12-137.  A function is given by the
   place it comes from; what each does is modelled elsewhere, or is the library's. *)
From Coq Require Import List String.
From Verif Require Import Base.
Import ListNotations.
Local Open Scope string_scope.

Inductive maker :=
| Own (f : string)                                 (* a variable of internal/lang/funcs *)
| OwnTo (t : string)                               (* funcs.MakeToFunc of a type *)
| OwnAt (f : string) (flag : bool) (dir : string)  (* a function made for a directory *)
| Lib (pkg f : string).                            (* a variable of a library *)

(* functions.go:13-119 *)
Definition always : list (string * maker) := [
   ("abs", Lib "stdlib" "AbsoluteFunc"); ("abspath", Own "AbsPathFunc"); ("alltrue", Own "AllTrueFunc");
   ("anytrue", Own "AnyTrueFunc"); ("basename", Own "BasenameFunc"); ("base64decode", Own "Base64DecodeFunc");
   ("base64encode", Own "Base64EncodeFunc"); ("base64gzip", Own "Base64GzipFunc");
   ("base64sha256", Own "Base64Sha256Func"); ("base64sha512", Own "Base64Sha512Func");
   ("bcrypt", Own "BcryptFunc"); ("can", Lib "tryfunc" "CanFunc"); ("ceil", Lib "stdlib" "CeilFunc");
   ("chomp", Lib "stdlib" "ChompFunc"); ("cidrhost", Own "CidrHostFunc");
   ("cidrnetmask", Own "CidrNetmaskFunc"); ("cidrsubnet", Own "CidrSubnetFunc");
   ("cidrsubnets", Own "CidrSubnetsFunc"); ("coalesce", Own "CoalesceFunc");
   ("coalescelist", Lib "stdlib" "CoalesceListFunc"); ("compact", Lib "stdlib" "CompactFunc");
   ("concat", Lib "stdlib" "ConcatFunc"); ("contains", Lib "stdlib" "ContainsFunc");
   ("csvdecode", Lib "stdlib" "CSVDecodeFunc"); ("dirname", Own "DirnameFunc");
   ("distinct", Lib "stdlib" "DistinctFunc"); ("element", Lib "stdlib" "ElementFunc");
   ("endswith", Own "EndsWithFunc"); ("chunklist", Lib "stdlib" "ChunklistFunc");
   ("flatten", Lib "stdlib" "FlattenFunc"); ("floor", Lib "stdlib" "FloorFunc");
   ("format", Lib "stdlib" "FormatFunc"); ("formatdate", Lib "stdlib" "FormatDateFunc");
   ("formatlist", Lib "stdlib" "FormatListFunc"); ("indent", Lib "stdlib" "IndentFunc");
   ("index", Own "IndexFunc"); ("join", Lib "stdlib" "JoinFunc"); ("jsondecode", Lib "stdlib" "JSONDecodeFunc");
   ("jsonencode", Lib "stdlib" "JSONEncodeFunc"); ("keys", Lib "stdlib" "KeysFunc");
   ("length", Own "LengthFunc"); ("list", Own "ListFunc"); ("log", Lib "stdlib" "LogFunc");
   ("lookup", Own "LookupFunc"); ("lower", Lib "stdlib" "LowerFunc"); ("map", Own "MapFunc");
   ("matchkeys", Own "MatchkeysFunc"); ("max", Lib "stdlib" "MaxFunc"); ("md5", Own "Md5Func");
   ("merge", Lib "stdlib" "MergeFunc"); ("min", Lib "stdlib" "MinFunc"); ("one", Own "OneFunc");
   ("parseint", Lib "stdlib" "ParseIntFunc"); ("pathexpand", Own "PathExpandFunc");
   ("pow", Lib "stdlib" "PowFunc"); ("range", Lib "stdlib" "RangeFunc"); ("regex", Lib "stdlib" "RegexFunc");
   ("regexall", Lib "stdlib" "RegexAllFunc"); ("replace", Own "ReplaceFunc");
   ("reverse", Lib "stdlib" "ReverseListFunc"); ("rsadecrypt", Own "RsaDecryptFunc");
   ("sensitive", Own "SensitiveFunc"); ("nonsensitive", Own "NonsensitiveFunc");
   ("setintersection", Lib "stdlib" "SetIntersectionFunc"); ("setproduct", Lib "stdlib" "SetProductFunc");
   ("setsubtract", Lib "stdlib" "SetSubtractFunc"); ("setunion", Lib "stdlib" "SetUnionFunc");
   ("sha1", Own "Sha1Func"); ("sha256", Own "Sha256Func"); ("sha512", Own "Sha512Func");
   ("signum", Lib "stdlib" "SignumFunc"); ("slice", Lib "stdlib" "SliceFunc");
   ("sort", Lib "stdlib" "SortFunc"); ("split", Lib "stdlib" "SplitFunc"); ("startswith", Own "StartsWithFunc");
   ("strcontains", Own "StrContainsFunc"); ("strrev", Lib "stdlib" "ReverseFunc");
   ("substr", Lib "stdlib" "SubstrFunc"); ("sum", Own "SumFunc");
   ("textdecodebase64", Own "TextDecodeBase64Func"); ("textencodebase64", Own "TextEncodeBase64Func");
   ("timestamp", Own "TimestampFunc"); ("timeadd", Lib "stdlib" "TimeAddFunc"); ("timecmp", Own "TimeCmpFunc");
   ("title", Lib "stdlib" "TitleFunc"); ("tostring", OwnTo "cty.String"); ("tonumber", OwnTo "cty.Number");
   ("tobool", OwnTo "cty.Bool"); ("toset", OwnTo "cty.Set(cty.DynamicPseudoType)");
   ("tolist", OwnTo "cty.List(cty.DynamicPseudoType)"); ("tomap", OwnTo "cty.Map(cty.DynamicPseudoType)");
   ("transpose", Own "TransposeFunc"); ("trim", Lib "stdlib" "TrimFunc");
   ("trimprefix", Lib "stdlib" "TrimPrefixFunc"); ("trimspace", Lib "stdlib" "TrimSpaceFunc");
   ("trimsuffix", Lib "stdlib" "TrimSuffixFunc"); ("try", Lib "tryfunc" "TryFunc");
   ("upper", Lib "stdlib" "UpperFunc"); ("urlencode", Own "URLEncodeFunc"); ("uuid", Own "UUIDFunc");
   ("uuidv5", Own "UUIDV5Func"); ("values", Lib "stdlib" "ValuesFunc");
   ("yamldecode", Lib "ctyyaml" "YAMLDecodeFunc"); ("yamlencode", Lib "ctyyaml" "YAMLEncodeFunc");
   ("zipmap", Lib "stdlib" "ZipmapFunc")].
(* functions.go:123-132 *)
Definition file_functions (dir : string) : list (string * maker) := [
   ("file", OwnAt "MakeFileFunc" false dir); ("fileexists", OwnAt "MakeFileExistsFunc" false dir);
   ("fileset", OwnAt "MakeFileSetFunc" false dir); ("filebase64", OwnAt "MakeFileFunc" true dir);
   ("filebase64sha256", OwnAt "MakeFileBase64Sha256Func" false dir);
   ("filebase64sha512", OwnAt "MakeFileBase64Sha512Func" false dir);
   ("filemd5", OwnAt "MakeFileMd5Func" false dir); ("filesha1", OwnAt "MakeFileSha1Func" false dir);
   ("filesha256", OwnAt "MakeFileSha256Func" false dir); ("filesha512", OwnAt "MakeFileSha512Func" false dir)].
(* CoreFunctions, functions.go:12-137: without an argument base is nil *)
Definition core_functions (base : list string) : list (string * maker) :=
  match base with
  | [] => always
  | dir :: _ => fold_left (fun m kv => insert (fst kv) (snd kv) m) (file_functions dir) always
  end.
(* The call in utils/tree.go:43 *)
Definition default_functions : list (string * maker) := core_functions ["."].
