(* Specification of the network functions over numbers: an address of w bytes is a number
   below 2^(8w), a network is a block of 2^(8w-l) numbers starting at a multiple of it. *)

From Verif Require Import Base IpModel IpSpec.

Definition size (w : nat) (l : Z) : Z := 2 ^ (8 * Z.of_nat w - l).

(* s is the text of a network prefix: family w, first address base, length l. *)
Definition prefix_text (s : string) (w : nat) (base l : Z) : Prop :=
  exists addr p a, s = (addr +++ "/" +++ p) /\
    (w = 4 /\ quad addr a \/ w = 16 /\ v6_text addr a) /\ decimal p l /\ (l <= 8 * Z.of_nat w)%Z /\
    base = (number a - number a mod size w l)%Z.

(* The bytes of the number c. *)
Definition is_address (ip : list Z) (w : nat) (c : Z) : Prop := bytes ip /\ length ip = w /\ number ip = c.

(* net is the network of family w with first address c and length l. *)
Definition is_block (net : ipnet) (w : nat) (c l : Z) : Prop :=
  (0 <= l <= 8 * Z.of_nat w /\ c mod size w l = 0)%Z /\
  (exists ip, net_ip net = Some ip /\ is_address ip w c) /\
  is_address (net_mask net) w (2 ^ (8 * Z.of_nat w) - size w l).

(* The IPv6 addresses ::ffff:0:0 to ::ffff:ffff:ffff. *)
Definition v4_mapped (w : nat) (c : Z) : Prop := w = 16 /\ (65535 * 2 ^ 32 <= c < 65536 * 2 ^ 32)%Z.

(* The least multiple of d that is not below e. *)
Definition least_multiple (e d s : Z) : Prop :=
  (e <= s /\ s mod d = 0 /\ forall t, e <= t -> t mod d = 0 -> s <= t)%Z.

(* First fit: each network of the list (start, length) starts at the first suitable
   address not below e. *)
Inductive first_fit (w : nat) : Z -> list (Z * Z) -> Prop :=
| ff_nil : forall e, first_fit w e []
| ff_cons : forall e c l r, least_multiple e (size w l) c -> first_fit w (c + size w l)%Z r ->
    first_fit w e ((c, l) :: r).

(* Networks as (start, length): the network itself, lying inside a prefix, lying wholly
   before another one. *)
Definition block_at (w : nat) (net : ipnet) (x : Z * Z) : Prop := is_block net w (fst x) (snd x).
Definition inside (w : nat) (base l : Z) (x : Z * Z) : Prop := (base <= fst x /\ fst x + size w (snd x) <= base + size w l)%Z.
Definition before (w : nat) (x y : Z * Z) : Prop := (fst x + size w (snd x) <= fst y)%Z.

(* The host number counted from the start of the prefix. *)
Definition host_index (w : nat) (l n : Z) : Z := if (n <? 0)%Z then (size w l + n)%Z else n.

(* The prefixes for which every first fit is found: not starting at address zero, and for
   IPv6 not meeting the IPv4-mapped range nor starting right after it. *)
Definition plain (w : nat) (base l : Z) : Prop :=
  (0 < base)%Z /\ (w = 16 -> (base + size w l <= 65535 * 2 ^ 32 \/ 65536 * 2 ^ 32 < base)%Z).
