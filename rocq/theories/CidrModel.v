(* Model of internal/lang/funcs/cidr.go, with the parts of github.com/apparentlymart/go-cidr
   v1.1.0 (cidr/cidr.go, cidr/wrangling.go) and of Go's net package that it calls.  Those
   libraries are not in the repository; the definitions marked "library" below are an
   assumption about them.

   Simplifications: the results stay structured (address bytes, ipnet) instead of being
   printed with IP.String and IPNet.String; unknown and marked arguments never reach these
   functions (the cty function wrapper handles them). *)

From Verif Require Import Base IpModel.

(* gocty.FromCtyValue (library) into *big.Int and into int.  A number argument is Some z
   for the whole number z and None for a number that is not whole. *)
Definition to_big (n : option Z) : result Z :=
  match n with Some z => Ok z | None => Err "value must be a whole number" end.
Definition min_int : Z := - 2 ^ 63.
Definition max_int : Z := 2 ^ 63 - 1.
Definition to_int (n : option Z) : result Z :=
  match n with
  | Some z => if ((z <? min_int) || (max_int <? z))%Z then Err "value must fit in int64" else Ok z
  | None => Err "value must be a whole number"
  end.

(* Go's 64-bit int arithmetic wraps. *)
Definition wrap64 (z : Z) : Z := ((z + 2 ^ 63) mod 2 ^ 64 - 2 ^ 63)%Z.

(* The cty function wrapper (function.Function.Call, library) turns a panic of the
   implementation into an error. *)
Definition recover {A} (r : result A) : result A := match r with Panic m => Err m | _ => r end.

Definition ip_bytes (o : option (list Z)) : list Z := match o with Some l => l | None => [] end.

(* net.CIDRMask for every argument (library): nil when ones is out of range. *)
Definition cidr_mask_z (ones : Z) (l : nat) : list Z :=
  if ((ones <? 0) || (8 * Z.of_nat l <? ones))%Z then [] else cidr_mask l (Z.to_nat ones).

(* net.simpleMaskLength and net.IPMask.Size (library).  lead counts the leading one bits of
   a byte and returns what is left of it. *)
Fixpoint lead (k : nat) (v : Z) (n : Z) : Z * Z :=
  match k with
  | O => (n, v)
  | S k' => if Z.testbit v 7 then lead k' (2 * v mod 256)%Z (n + 1)%Z else (n, v)
  end.
Fixpoint mask_length (m : list Z) (n : Z) : option Z :=
  match m with
  | [] => Some n
  | v :: r =>
    if (v =? 255)%Z then mask_length r (n + 8)%Z
    else let '(n', v') := lead 8 v n in
         if negb (v' =? 0)%Z then None
         else if forallb (fun b => b =? 0)%Z r then Some n' else None
  end.
Definition mask_size (m : list Z) : Z * Z :=
  match mask_length m 0 with Some n => (n, 8 * Z.of_nat (length m))%Z | None => (0, 0)%Z end.

(* wrangling.go: ipToInt (library), panics on other lengths. *)
Definition ip_to_int (ip : list Z) : result (Z * Z) :=
  let v := fold_left (fun a b => a * 256 + b)%Z ip 0%Z in
  if length ip =? 4 then Ok (v, 32%Z)
  else if length ip =? 16 then Ok (v, 128%Z)
  else Panic "Unsupported address length".

(* The l low-order bytes of z, most significant first. *)
Fixpoint to_bytes (l : nat) (z : Z) : list Z :=
  match l with
  | O => []
  | S l' => to_bytes l' (z / 256)%Z ++ [(z mod 256)%Z]
  end.
(* wrangling.go: intToIP (library).  big.Int.Bytes is the absolute value; more bytes than
   fit index the result out of range. *)
Definition int_to_ip (z : Z) (bits : Z) : result (list Z) :=
  let l := Z.to_nat (bits / 8) in
  if (Z.abs z <? 256 ^ Z.of_nat l)%Z then Ok (to_bytes l (Z.abs z)) else Panic "index out of range".

(* wrangling.go: insertNumIntoIP (library). *)
Definition insert_num (ip : list Z) (num prefix_len : Z) : result (list Z) :=
  do r <- ip_to_int ip;
  let '(v, total) := r : Z * Z in
  int_to_ip (Z.lor v (Z.shiftl num (total - prefix_len))) total.

(* cidr.go: HostBig (library).  num.Uint64() is the low 64 bits of |num|. *)
Definition host_big (base : ipnet) (num : Z) : result (list Z) :=
  let ip := ip_bytes (net_ip base) in
  let '(parent_len, addr_len) := mask_size (net_mask base) in
  let host_len := (addr_len - parent_len)%Z in
  let max_host := (2 ^ host_len - 1)%Z in
  let num64 := if (num <? 0)%Z then (- num - 1)%Z else wrap64 (Z.abs num mod 2 ^ 64) in
  let num' := if (num <? 0)%Z then (max_host - num64)%Z else num in
  if (max_host <? num64)%Z then Err "prefix does not accommodate the host number"
  else insert_num ip num' (match to4 ip with Some _ => 32 | None => 128 end)%Z.

(* cidr.go: SubnetBig (library).  1<<uint64(newBits) is 0 from 64 on, and a negative
   newBits is a large unsigned number. *)
Definition subnet_big (base : ipnet) (new_bits num : Z) : result ipnet :=
  let ip := ip_bytes (net_ip base) in
  let '(parent_len, addr_len) := mask_size (net_mask base) in
  let new_len := wrap64 (parent_len + new_bits) in
  if (addr_len <? new_len)%Z then Err "insufficient address space to extend prefix"
  else
    let max_net := (if (0 <=? new_bits) && (new_bits <? 64) then 2 ^ new_bits - 1 else 2 ^ 64 - 1)%Z in
    if (max_net <? Z.abs num mod 2 ^ 64)%Z then Err "prefix extension does not accommodate the subnet number"
    else do ip' <- insert_num ip num new_len;
         Ok (mkNet (Some ip') (cidr_mask_z new_len (Z.to_nat (addr_len / 8)))).

(* cidr.go: checkIPv4, Inc, Dec (library); the loops run from the last byte. *)
Definition check_ipv4 (ip : list Z) : list Z := match to4 ip with Some v4 => v4 | None => ip end.
Fixpoint inc_loop (l : list Z) : list Z :=
  match l with
  | [] => []
  | b :: r => let b' := ((b + 1) mod 256)%Z in if (0 <? b')%Z then b' :: r else b' :: inc_loop r
  end.
Definition inc_ip (ip : list Z) : list Z := rev (inc_loop (rev (check_ipv4 ip))).
Fixpoint dec_loop (l : list Z) : list Z :=
  match l with
  | [] => []
  | b :: r => let b' := ((b - 1) mod 256)%Z in if (b' <? 255)%Z then b' :: r else b' :: dec_loop r
  end.
Definition dec_ip (ip : list Z) : list Z := rev (dec_loop (rev (check_ipv4 ip))).

(* cidr.go: AddressRange (library), the last address. *)
Definition last_address (n : ipnet) : result (list Z) :=
  let first := ip_bytes (net_ip n) in
  let '(prefix_len, bits) := mask_size (net_mask n) in
  if (prefix_len =? bits)%Z then Ok first
  else do r <- ip_to_int first;
       let '(v, bits) := r : Z * Z in
       int_to_ip (Z.lor (2 ^ (bits - prefix_len) - 1) v) bits.

(* net.IP.Equal (library) *)
Definition ip_equal (a b : list Z) : bool :=
  if length a =? length b then list_eqb a b
  else if (length a =? 4) && (length b =? 16) then list_eqb (firstn 12 b) v4_prefix && list_eqb a (skipn 12 b)
  else if (length a =? 16) && (length b =? 4) then list_eqb (firstn 12 a) v4_prefix && list_eqb b (skipn 12 a)
  else false.
Definition is_zero_ip (ip : list Z) : bool := ip_equal ip (v4_prefix ++ zeros 4) || ip_equal ip (zeros 16).

(* cidr.go: PreviousSubnet (library); the caller ignores the second result. *)
Definition previous_subnet (n : ipnet) (prefix_len : Z) : ipnet :=
  let start := check_ipv4 (ip_bytes (net_ip n)) in
  let mask := cidr_mask_z prefix_len (length start) in
  mkNet (ip_mask (dec_ip start) mask) mask.

(* cidr.go: NextSubnet (library). *)
Definition next_subnet (n : ipnet) (prefix_len : Z) : result (ipnet * bool) :=
  do current_last <- last_address n;
  let mask := cidr_mask_z prefix_len (length current_last) in
  do last <- last_address (mkNet (ip_mask current_last mask) mask);
  let last' := inc_ip last in
  Ok (mkNet (ip_mask last' mask) mask, is_zero_ip last').

(* CidrHostFunc, cidr.go:32-48 *)
Definition cidr_host (prefix : string) (hostnum : option Z) : result (list Z) :=
  recover (do n <- to_big hostnum;
           do r <- parse_cidr prefix;
           host_big (snd r) n).

(* CidrNetmaskFunc, cidr.go:62-73: the mask bytes as an address. *)
Definition cidr_netmask (prefix : string) : result (list Z) :=
  recover (do r <- parse_cidr prefix;
           match to4 (ip_bytes (net_ip (snd r))) with
           | None => Err "IPv6 addresses cannot have a netmask"
           | Some _ => Ok (net_mask (snd r))
           end).

(* CidrSubnetFunc, cidr.go:95-116 *)
Definition cidr_subnet (prefix : string) (newbits netnum : option Z) : result ipnet :=
  recover (do b <- to_int newbits;
           do n <- to_big netnum;
           do r <- parse_cidr prefix;
           subnet_big (snd r) b n).

(* CidrSubnetsFunc, cidr.go:155-194: the loop. *)
Fixpoint subnets_loop (network : ipnet) (start : Z) (args : list (option Z)) (current : ipnet) : result (list ipnet) :=
  match args with
  | [] => Ok []
  | a :: args' =>
    do length <- to_int a;                                                          (* 156-159 *)
    if (length <? 1)%Z then Err "must extend prefix by at least one bit" else       (* 161-163 *)
    if (32 <? length)%Z then Err "may not extend prefix by more than 32 bits" else  (* 168-170 *)
    let length' := (length + start)%Z in                                            (* 171-181 *)
    if (Z.of_nat (List.length (ip_bytes (net_ip network))) * 8 <? length')%Z then Err "too long for the address" else
    do r <- next_subnet current length';                                            (* 183-190 *)
    let '(next, rollover) := r : ipnet * bool in
    if rollover || negb (contains network (ip_bytes (net_ip next))) then Err "not enough remaining address space" else
    do rest <- subnets_loop network start args' next;                               (* 192-193 *)
    Ok (next :: rest)
  end.

(* CidrSubnetsFunc, cidr.go:134-197 *)
Definition cidr_subnets (prefix : string) (newbits : list (option Z)) : result (list ipnet) :=
  recover (do r <- parse_cidr prefix;
           let network := snd r in
           let start := fst (mask_size (net_mask network)) in                       (* 139 *)
           match newbits with
           | [] => Ok []                                                            (* 142-144 *)
           | a :: _ =>
             do first <- to_int a;                                                  (* 146-150 *)
             subnets_loop network start newbits (previous_subnet network (wrap64 (first + start)))
           end).
