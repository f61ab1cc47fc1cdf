(* The texts of addresses and networks, as internal/lang/funcs/cidr.go:47, 72, 115 and 193 prints
   them: IP.String and IPNet.String of Go's package net (library), which internal/ipaddr/ip.go:23-24
   takes over by alias.  The definitions are an assumption about that library; it writes an
   address with net/netip. *)

From Verif Require Import Base IpModel CidrModel.
Local Open Scope Z_scope.

(* A digit, in small letters. *)
Definition digit (d : Z) : string := String (ascii_of_N (Z.to_N (if d <? 10 then 48 + d else 87 + d))) "".
(* netip appendDecimal, and net uitoa below 1000 (library) *)
Definition dec_text (x : Z) : string :=
  (if 100 <=? x then digit (x / 100) else "") +++ (if 10 <=? x then digit (x / 10 mod 10) else "") +++ digit (x mod 10).
(* netip appendHex (library) *)
Definition hex_text (x : Z) : string :=
  (if 4096 <=? x then digit (x / 4096) else "") +++ (if 256 <=? x then digit (x / 256 mod 16) else "") +++
  (if 16 <=? x then digit (x / 16 mod 16) else "") +++ digit (x mod 16).

(* The groups of two bytes. *)
Fixpoint pairs (ip : list Z) : list Z :=
  match ip with a :: b :: r => (a * 256 + b) :: pairs r | _ => [] end.

(* netip.Addr.appendTo6 (library): the number of zeros in front, and the first of the longest
   runs of two or more zeros as its start and length; length 0 if there is none. *)
Fixpoint zero_run (gs : list Z) : nat := match gs with g :: r => if g =? 0 then S (zero_run r) else O | [] => O end.
Fixpoint longest_run (i : nat) (gs : list Z) (best : nat * nat) : nat * nat :=
  match gs with
  | [] => best
  | _ :: r =>
    let l := zero_run gs in
    longest_run (S i) r (if (2 <=? l)%nat && (snd best <? l)%nat then (i, l) else best)
  end.
Fixpoint after_run (gs : list Z) : string := match gs with [] => "" | g :: r => ":" +++ hex_text g +++ after_run r end.
(* The second loop of appendTo6: i is the number of groups before gs. *)
Fixpoint write_groups (run : nat * nat) (i : nat) (gs : list Z) : string :=
  match gs with
  | [] => ""
  | g :: r =>
    if (0 <? snd run)%nat && (i =? fst run)%nat
    then "::" +++ match skipn (snd run) gs with [] => "" | g' :: r' => hex_text g' +++ after_run r' end
    else (if (0 <? i)%nat then ":" else "") +++ hex_text g +++ write_groups run (S i) r
  end.
Definition v6_string (ip : list Z) : string := let gs := pairs ip in write_groups (longest_run 0 gs (O, O)) 0 gs.
Definition v4_string (ip : list Z) : string :=
  match ip with a :: b :: c :: d :: _ => dec_text a +++ "." +++ dec_text b +++ "." +++ dec_text c +++ "." +++ dec_text d | _ => "" end.

(* net.IP.String (library); addresses of other lengths are not printed by the functions. *)
Definition ip_string (ip : list Z) : string :=
  match to4 ip with
  | Some q => v4_string q
  | None => if (length ip =? 16)%nat then v6_string ip else "<nil>"
  end.
(* net.IPNet.String (library); simplification: a mask with gaps, which the functions never make,
   gives <nil>. *)
Definition net_string (n : ipnet) : string :=
  match network_number_and_mask n with
  | None => "<nil>"
  | Some (nn, m) => match mask_length m 0 with Some l => ip_string nn +++ "/" +++ dec_text l | None => "<nil>" end
  end.
