(* Specification of the short form of IPv6 addresses (RFC 5952, section 4). *)

From Verif Require Import Base IpModel IpSpec.

(* No zeros in front, no capital letters. *)
Definition tidy (s : string) : Prop :=
  (s = "0" \/ forall r, s <> String "0" r) /\ forall a c b, s = (a +++ String c b) -> ~ (65 <= byte_of c <= 90)%Z.

(* Groups, each written tidily, with colons between them. *)
Inductive tidy_groups : string -> list Z -> Prop :=
| tg_one : forall s n, hexadecimal s n -> tidy s -> tidy_groups s [n]
| tg_cons : forall s n r gs, hexadecimal s n -> tidy s -> tidy_groups r gs -> tidy_groups (s +++ ":" +++ r) (n :: gs).
Inductive some_groups : string -> list Z -> Prop :=
| sg_none : some_groups "" []
| sg_some : forall s gs, tidy_groups s gs -> some_groups s gs.

(* gs has a run of k zeros after the groups a, before b. *)
Definition zeros_at (gs a : list Z) (k : nat) (b : list Z) : Prop := gs = a ++ repeat 0%Z k ++ b.

(* The text of eight groups: :: stands for the first of the longest runs of zeros, and for none
   of one zero only. *)
Inductive short_text (gs : list Z) : string -> Prop :=
| st_full : forall s, tidy_groups s gs -> (forall a k b, zeros_at gs a k b -> k < 2) -> short_text gs s
| st_run : forall a k b sa sb, zeros_at gs a k b -> 2 <= k -> some_groups sa a -> some_groups sb b ->
    (forall a' k' b', zeros_at gs a' k' b' -> k' <= k /\ (k' = k -> length a <= length a')) ->
    short_text gs (sa +++ "::" +++ sb).

(* The groups of an address. *)
Definition groups_of (gs ip : list Z) : Prop := ip = flat_map (fun g => [g / 256; g mod 256]%Z) gs.
