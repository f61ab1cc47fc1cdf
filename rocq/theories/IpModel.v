(* Model of internal/ipaddr/ip.go and internal/ipaddr/parse.go: the address parsers.
   Every index and slice expression is checked and panics when out of range. *)

From Verif Require Import Base.

(* Go int arithmetic is modelled by Z; the values stay below 16*big, far from overflow
   (dtoi_bound and xtoi_bound in IpProofs.v). *)

(* s[i], s[n:] and ip[i] = b *)
Fixpoint idx (s : string) (i : nat) : result ascii :=
  match s, i with
  | "", _ => Panic "index out of range"
  | String c _, O => Ok c
  | String _ s', S i' => idx s' i'
  end.
Fixpoint from (s : string) (n : nat) : result string :=
  match n, s with
  | O, _ => Ok s
  | S _, "" => Panic "slice bounds out of range"
  | S n', String _ s' => from s' n'
  end.
Fixpoint upto (s : string) (n : nat) : result string :=
  match n, s with
  | O, _ => Ok ""
  | S _, "" => Panic "slice bounds out of range"
  | S n', String c s' => do r <- upto s' n'; Ok (String c r)
  end.
Fixpoint store (p : list Z) (i : nat) (b : Z) : result (list Z) :=
  match p, i with
  | [], _ => Panic "index out of range"
  | _ :: p', O => Ok (b :: p')
  | x :: p', S i' => do r <- store p' i' b; Ok (x :: r)
  end.
Fixpoint load (p : list Z) (i : nat) : result Z :=
  match p, i with
  | [], _ => Panic "index out of range"
  | x :: _, O => Ok x
  | _ :: p', S i' => load p' i'
  end.

Definition in_range (lo hi c : ascii) : bool := ((byte_of lo <=? byte_of c) && (byte_of c <=? byte_of hi))%Z.

(* parse.go:11 *)
Definition big : Z := 16777215.

(* dtoi, parse.go:15-27: number, characters consumed, success.  The loop walks the string,
   i counts the characters. *)
Fixpoint dtoi_loop (s : string) (n : Z) (i : nat) : Z * nat * bool :=
  match s with
  | String c s' =>
    if in_range "0" "9" c then
      let n' := (n * 10 + (byte_of c - byte_of "0"))%Z in
      if (big <=? n')%Z then (big, i, false) else dtoi_loop s' n' (S i)
    else if i =? 0 then (0%Z, 0, false) else (n, i, true)
  | "" => if i =? 0 then (0%Z, 0, false) else (n, i, true)
  end.
Definition dtoi (s : string) : Z * nat * bool := dtoi_loop s 0 0.

(* xtoi, parse.go:31-54. *)
Fixpoint xtoi_loop (s : string) (n : Z) (i : nat) : Z * nat * bool :=
  let stop := if i =? 0 then (0%Z, i, false) else (n, i, true) in
  match s with
  | String c s' =>
    let go n' := if (big <=? n')%Z then (0%Z, i, false) else xtoi_loop s' n' (S i) in
    if in_range "0" "9" c then go (n * 16 + (byte_of c - byte_of "0"))%Z
    else if in_range "a" "f" c then go (n * 16 + (byte_of c - byte_of "a") + 10)%Z
    else if in_range "A" "F" c then go (n * 16 + (byte_of c - byte_of "A") + 10)%Z
    else stop
  | "" => stop
  end.
Definition xtoi (s : string) : Z * nat * bool := xtoi_loop s 0 0.

(* net.IPv4 (Go library): the 16-byte form. *)
Definition v4_prefix : list Z := [0; 0; 0; 0; 0; 0; 0; 0; 0; 0; 255; 255]%Z.

(* parseIPv4, ip.go:34-67.  Ok None is the nil IP.  k counts the remaining rounds. *)
Fixpoint v4_loop (k i : nat) (s : string) (p : list Z) : result (option (list Z)) :=
  match k with
  | O => if String.eqb s "" then Ok (Some (v4_prefix ++ p)) else Ok None            (* 63-66 *)
  | S k' =>
    if String.eqb s "" then Ok None else                                            (* 37-40 *)
    do s1 <- (if 0 <? i then
                do c <- idx s 0;                                                    (* 41-46 *)
                if Ascii.eqb c "." then do s' <- from s 1; Ok (Some s') else Ok None
              else Ok (Some s));
    match s1 with
    | None => Ok None
    | Some s1 =>
      let '(n, c, ok) := dtoi s1 in                                                 (* 47 *)
      if negb ok || (255 <? n)%Z then Ok None else
      do s2 <- from s1 c;                                                           (* 60-61 *)
      do p' <- store p i n;
      v4_loop k' (S i) s2 p'
    end
  end.
Definition parse_ipv4 (s : string) : result (option (list Z)) := v4_loop 4 0 s [0; 0; 0; 0]%Z.

(* parseIPv6, ip.go:87-145: the loop.  Its result: nil (None), or the buffer, the
   remaining text, i and the position of the ellipsis when the loop is left.  Every round
   adds 2 to i, so 9 rounds are enough; running out of them is a panic here, which
   never happens. *)
Fixpoint v6_loop (k : nat) (s : string) (ip : list Z) (i : nat) (ellipsis : option nat)
  : result (option (list Z * string * nat * option nat)) :=
  match k with
  | O => Panic "not reached"
  | S k' =>
    if negb (i <? 16) then Ok (Some (ip, s, i, ellipsis)) else
    let '(n, c, ok) := xtoi s in                                                    (* 89-92 *)
    if negb ok || (65535 <? n)%Z then Ok None else
    do dot <- (if c <? String.length s then do ch <- idx s c; Ok (Ascii.eqb ch ".") else Ok false);
    if dot : bool then                                                              (* 95-115 *)
      if match ellipsis with None => negb (i =? 16 - 4) | Some _ => false end then Ok None
      else if 16 <? i + 4 then Ok None
      else
        do ip4 <- parse_ipv4 s;
        match ip4 with
        | None => Ok None
        | Some ip4 =>
          do b0 <- load ip4 12; do ip1 <- store ip i b0;
          do b1 <- load ip4 13; do ip2 <- store ip1 (i + 1) b1;
          do b2 <- load ip4 14; do ip3 <- store ip2 (i + 2) b2;
          do b3 <- load ip4 15; do ip4 <- store ip3 (i + 3) b3;
          Ok (Some (ip4, "", i + 4, ellipsis))
        end
    else
      do ip1 <- store ip i (n / 256 mod 256)%Z;                                     (* 118-120 *)
      do ip2 <- store ip1 (i + 1) (n mod 256)%Z;
      do s1 <- from s c;                                                            (* 123-126 *)
      if String.eqb s1 "" then Ok (Some (ip2, s1, i + 2, ellipsis)) else
      do c0 <- idx s1 0;                                                            (* 129-132 *)
      if negb (Ascii.eqb c0 ":") || (String.length s1 =? 1) then Ok None else
      do s2 <- from s1 1;
      do c1 <- idx s2 0;                                                            (* 135-144 *)
      if Ascii.eqb c1 ":" then
        match ellipsis with
        | Some _ => Ok None
        | None =>
          do s3 <- from s2 1;
          if String.eqb s3 "" then Ok (Some (ip2, s3, i + 2, Some (i + 2)))
          else v6_loop k' s3 ip2 (i + 2) (Some (i + 2))
        end
      else v6_loop k' s2 ip2 (i + 2) ellipsis
  end.

(* ip.go:158-160: for j := i - 1; j >= ellipsis; j-- { ip[j+n] = ip[j] }; the count is the
   number of rounds left, j = ellipsis + count - 1. *)
Fixpoint shift_loop (count ellipsis n : nat) (ip : list Z) : result (list Z) :=
  match count with
  | O => Ok ip
  | S count' =>
    do b <- load ip (ellipsis + count');
    do ip' <- store ip (ellipsis + count' + n) b;
    shift_loop count' ellipsis n ip'
  end.
(* ip.go:161-163: for j := ellipsis + n - 1; j >= ellipsis; j-- { ip[j] = 0 } *)
Fixpoint zero_loop (count ellipsis : nat) (ip : list Z) : result (list Z) :=
  match count with
  | O => Ok ip
  | S count' => do ip' <- store ip (ellipsis + count') 0%Z; zero_loop count' ellipsis ip'
  end.

(* ip.go:147-168, after the loop. *)
Definition v6_finish (ip : list Z) (s : string) (i : nat) (ellipsis : option nat) : result (option (list Z)) :=
  if negb (String.eqb s "") then Ok None
  else if i <? 16 then
    match ellipsis with
    | None => Ok None
    | Some e =>
      let n := 16 - i in
      do ip1 <- shift_loop (i - e) e n ip;
      do ip2 <- zero_loop n e ip1;
      Ok (Some ip2)
    end
  else match ellipsis with Some _ => Ok None | None => Ok (Some ip) end.

Definition zeros (n : nat) : list Z := repeat 0%Z n.

(* parseIPv6, ip.go:71-169. *)
Definition parse_ipv6 (s : string) : result (option (list Z)) :=
  do lead <- (if 2 <=? String.length s then
                do c0 <- idx s 0; do c1 <- idx s 1; Ok (Ascii.eqb c0 ":" && Ascii.eqb c1 ":")
              else Ok false);
  do s1 <- (if lead : bool then from s 2 else Ok s);                                (* 76-83 *)
  if lead && String.eqb s1 "" then Ok (Some (zeros 16)) else
  do r <- v6_loop 9 s1 (zeros 16) 0 (if lead then Some 0 else None);
  match r with
  | None => Ok None
  | Some (ip, s2, i, ellipsis) => v6_finish ip s2 i ellipsis
  end.

(* ParseIP, ip.go:176-186: the loop looks for the first '.' or ':'. *)
Fixpoint parse_ip_loop (whole s : string) : result (option (list Z)) :=
  match s with
  | "" => Ok None
  | String c s' =>
    if Ascii.eqb c "." then parse_ipv4 whole
    else if Ascii.eqb c ":" then parse_ipv6 whole
    else parse_ip_loop whole s'
  end.
Definition parse_ip (s : string) : result (option (list Z)) := parse_ip_loop s s.

(* indexByteString, ip.go:219-226; None is -1. *)
Fixpoint index_byte (s : string) (c : ascii) : option nat :=
  match s with
  | "" => None
  | String d s' => if Ascii.eqb d c then Some 0 else option_map S (index_byte s' c)
  end.

(* net.CIDRMask(ones, bits) (Go library) with l = bits/8 and 0 <= ones <= bits. *)
Fixpoint cidr_mask (l ones : nat) : list Z :=
  match l with
  | O => []
  | S l' => if 8 <=? ones then 255%Z :: cidr_mask l' (ones - 8)
            else (255 - 255 / 2 ^ Z.of_nat ones)%Z :: cidr_mask l' 0
  end.

Definition and_bytes (a b : list Z) : list Z := map (fun xy => Z.land (fst xy) (snd xy)) (combine a b).
Definition list_eqb (a b : list Z) : bool := if list_eq_dec Z.eq_dec a b then true else false.

(* net.IP.Mask (Go library); None is nil. *)
Definition ip_mask (ip mask : list Z) : option (list Z) :=
  let mask' := if (length mask =? 16) && (length ip =? 4) && list_eqb (firstn 12 mask) (repeat 255%Z 12)
               then skipn 12 mask else mask in
  let ip' := if (length mask' =? 4) && (length ip =? 16) && list_eqb (firstn 12 ip) v4_prefix
             then skipn 12 ip else ip in
  if length ip' =? length mask' then Some (and_bytes ip' mask') else None.

(* net.IPNet *)
Record ipnet := mkNet { net_ip : option (list Z); net_mask : list Z }.

(* ParseCIDR, ip.go:196-214. *)
Definition parse_cidr (s : string) : result (list Z * ipnet) :=
  match index_byte s "/" with
  | None => Err "invalid CIDR address"
  | Some i =>
    do addr <- upto s i;
    do mask <- from s (i + 1);
    do r4 <- parse_ipv4 addr;
    do r <- match r4 with
            | Some ip => Ok (4, Some ip)
            | None => do r6 <- parse_ipv6 addr; Ok (16, r6)
            end;
    let '(iplen, ip) := r : nat * option (list Z) in
    let '(n, j, ok) := dtoi mask in
    match ip with
    | None => Err "invalid CIDR address"
    | Some ip =>
      if negb ok || negb (j =? String.length mask) || (n <? 0)%Z || (8 * Z.of_nat iplen <? n)%Z
      then Err "invalid CIDR address"
      else let m := cidr_mask iplen (Z.to_nat n) in
           Ok (ip, mkNet (ip_mask ip m) m)
    end
  end.

(* net.IP.To4 (Go library); None is nil. *)
Definition to4 (ip : list Z) : option (list Z) :=
  if length ip =? 4 then Some ip
  else if (length ip =? 16) && list_eqb (firstn 12 ip) v4_prefix then Some (skipn 12 ip)
  else None.

(* net.networkNumberAndMask (Go library); None stands for the pair nil, nil. *)
Definition network_number_and_mask (n : ipnet) : option (list Z * list Z) :=
  let nip := match net_ip n with Some l => l | None => [] end in
  let ip := match to4 nip with
            | Some ip => Some ip
            | None => if length nip =? 16 then Some nip else None
            end in
  match ip with
  | None => None
  | Some ip =>
    if length (net_mask n) =? 4 then if length ip =? 4 then Some (ip, net_mask n) else None
    else if length (net_mask n) =? 16 then
      if length ip =? 4 then Some (ip, skipn 12 (net_mask n)) else Some (ip, net_mask n)
    else None
  end.

(* net.IPNet.Contains (Go library). *)
Definition contains (n : ipnet) (ip : list Z) : bool :=
  let '(nn, m) := match network_number_and_mask n with Some p => p | None => ([], []) end in
  let ip' := match to4 ip with Some x => x | None => ip end in
  (length ip' =? length nn) && list_eqb (and_bytes nn m) (and_bytes ip' m).
