(* The functions of internal/lang/funcs/cidr.go as functions on cty values; CidrModel.v has what
   they compute and AddrModel.v how it is written.

   Simplification: the texts are ASCII, which the normalisation of cty.StringVal leaves as it is,
   so that it is left out. *)

From Coq Require Import List String ZArith.
From Verif Require Import Base CtyModel FuncModel IpModel.
From Verif Require CidrModel AddrModel.
Import ListNotations.
Local Open Scope string_scope.

(* A number as gocty.FromCtyValue (library) sees it: None if it is not whole. *)
Definition whole (n : number) : option Z :=
  match n with
  | Fin _ d => match big_int d with (z, Exact) => Some z | _ => None end
  | Inf _ => None
  end.
Definition number_arg (v : value) : result (option Z) :=
  match v with Val [] (SNum n) _ => Ok (whole n) | _ => Panic "not a number" end.

(* CidrHostFunc, cidr.go:19-49 *)
Definition cidrhost_func : func := mkFunc [plain_param str; plain_param numt] None (static str)
  (fun args _ => match args with
   | [p; n] => do n' <- number_arg n; do s <- as_string p;
               do ip <- CidrModel.cidr_host s n'; Ok (str_val (AddrModel.ip_string ip))
   | _ => bad_args
   end).
(* CidrNetmaskFunc, cidr.go:53-74 *)
Definition cidrnetmask_func : func := mkFunc [plain_param str] None (static str)
  (fun args _ => match args with
   | [p] => do s <- as_string p; do m <- CidrModel.cidr_netmask s; Ok (str_val (AddrModel.ip_string m))
   | _ => bad_args
   end).
(* CidrSubnetFunc, cidr.go:78-117 *)
Definition cidrsubnet_func : func := mkFunc [plain_param str; plain_param numt; plain_param numt] None (static str)
  (fun args _ => match args with
   | [p; b; n] => do b' <- number_arg b; do n' <- number_arg n; do s <- as_string p;
                  do net <- CidrModel.cidr_subnet s b' n'; Ok (str_val (AddrModel.net_string net))
   | _ => bad_args
   end).
(* CidrSubnetsFunc, cidr.go:121-198 *)
Definition cidrsubnets_func : func := mkFunc [plain_param str] (Some (plain_param numt)) (static (list_of str))
  (fun args _ => match args with
   | p :: bs => do s <- as_string p; do bs' <- mapr number_arg bs;
                do nets <- CidrModel.cidr_subnets s bs'; Ok (list_val str (map (fun n => str_val (AddrModel.net_string n)) nets))
   | _ => bad_args
   end).
