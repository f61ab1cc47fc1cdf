(* What timestamps say: the calendar, counted day by day, and the texts of RFC 3339. *)

From Verif Require Import Base.
From Coq Require Import ZArith.
Local Open Scope Z_scope.

(* ----- The calendar ----- *)

Record date := Date { year : Z; month : Z; day : Z }.
(* A year that 4 divides has a leap day, unless 100 divides it and 400 does not. *)
Definition leap (y : Z) : Prop := (4 | y) /\ ((100 | y) -> (400 | y)).
Inductive month_length : Z -> Z -> Z -> Prop :=
| ml_long : forall y m, In m [1; 3; 5; 7; 8; 10; 12] -> month_length y m 31
| ml_short : forall y m, In m [4; 6; 9; 11] -> month_length y m 30
| ml_leap : forall y, leap y -> month_length y 2 29
| ml_feb : forall y, ~ leap y -> month_length y 2 28.
(* One day and the next. *)
Inductive next_day : date -> date -> Prop :=
| nd_day : forall y m d n, month_length y m n -> d < n -> next_day (Date y m d) (Date y m (d + 1))
| nd_month : forall y m d, month_length y m d -> m < 12 -> next_day (Date y m d) (Date y (m + 1) 1)
| nd_year : forall y, next_day (Date y 12 31) (Date (y + 1) 1 1).
(* The days since the first day of the year 0. *)
Inductive day_number : date -> Z -> Prop :=
| dn_first : day_number (Date 0 1 1) 0
| dn_next : forall a b n, day_number a n -> next_day a b -> day_number b (n + 1).
Definition is_date (a : date) : Prop := exists n, month_length (year a) (month a) n /\ 1 <= day a <= n.

(* ----- Texts ----- *)

Definition digit_char (n : Z) : ascii := ascii_of_nat (48 + Z.to_nat n).
Definition two_digits (n : Z) : string := String (digit_char (n / 10)) (String (digit_char (n mod 10)) "").
Definition four_digits (n : Z) : string := two_digits (n / 100) +++ two_digits (n mod 100).
Fixpoint digits_text (l : list Z) : string := match l with [] => "" | d :: l' => String (digit_char d) (digits_text l') end.
Definition is_digit (d : Z) : Prop := 0 <= d <= 9.
(* The number that digits write. *)
Definition digits_value (l : list Z) : Z := fold_left (fun n d => 10 * n + d) l 0.

(* A fraction of a second, by its digits, and a zone, by its minutes east of UTC. *)
Inductive fraction_text : list Z -> string -> Prop :=
| ft_none : fraction_text [] ""
| ft_some : forall d l, (forall x, In x (d :: l) -> is_digit x) -> fraction_text (d :: l) (String "." (digits_text (d :: l))).
Inductive zone_text : Z -> string -> Prop :=
| zt_utc : zone_text 0 "Z"
| zt_east : forall h m, 0 <= h <= 23 -> 0 <= m <= 59 -> zone_text (60 * h + m) (String "+" (two_digits h +++ String ":" (two_digits m)))
| zt_west : forall h m, 0 <= h <= 23 -> 0 <= m <= 59 -> zone_text (- (60 * h + m)) (String "-" (two_digits h +++ String ":" (two_digits m))).

(* A timestamp: the day, the seconds of the day, the digits of the fraction, the minutes east of
   UTC. *)
Inductive timestamp : date -> Z -> list Z -> Z -> string -> Prop :=
| timestamp_text : forall a h m s f z ft zt, is_date a -> 0 <= year a <= 9999 -> 0 <= h <= 23 -> 0 <= m <= 59 -> 0 <= s <= 59 ->
    fraction_text f ft -> zone_text z zt ->
    timestamp a (3600 * h + 60 * m + s) f z
      (four_digits (year a) +++ "-" +++ two_digits (month a) +++ "-" +++ two_digits (day a) +++ "T" +++
       two_digits h +++ ":" +++ two_digits m +++ ":" +++ two_digits s +++ ft +++ zt).

(* The billionths of a second in a fraction, with what is smaller left out. *)
Definition billionths (f : list Z) : Z := digits_value f * 1000000000 / 10 ^ Z.of_nat (List.length f).
(* What a text says: the nanoseconds since the start of the year 0 in UTC. *)
Definition says (t : string) (ns : Z) : Prop := exists a secs f z n,
  timestamp a secs f z t /\ day_number a n /\ ns = 1000000000 * (86400 * n + secs - 60 * z) + billionths f.
(* The same without leaving out anything: the numerator over 10 ^ the digits of the fraction. *)
Definition says_exactly (t : string) (num : Z) (places : nat) : Prop := exists a secs f z n,
  timestamp a secs f z t /\ day_number a n /\ places = List.length f /\
  num = 10 ^ Z.of_nat places * (86400 * n + secs - 60 * z) + digits_value f.

(* ----- Texts that are read though they are no timestamps, and complaints ----- *)

Inductive part := Year | Month | Day | Hour | Minute | Second | Fraction | Offset | Mark (c : ascii).
Definition rfc3339 : list part :=
  [Year; Mark "-"; Month; Mark "-"; Day; Mark "T"; Hour; Mark ":"; Minute; Mark ":"; Second; Fraction; Offset].
Definition starts_digit (r : string) : Prop := exists d r', is_digit d /\ r = String (digit_char d) r'.
Definition fraction_mark (c : ascii) : Prop := c = "."%char \/ c = ","%char.
(* The texts that are read as a part, with the value, before a rest.  The hour may be one digit, the
   fraction may follow a comma, the day may be any, and the offset may go to 24:60. *)
Inductive good : part -> Z -> string -> string -> Prop :=
| g_year : forall n r, 0 <= n <= 9999 -> good Year n (four_digits n) r
| g_month : forall n r, 1 <= n <= 12 -> good Month n (two_digits n) r
| g_day : forall n r, 0 <= n <= 99 -> good Day n (two_digits n) r
| g_hour : forall n r, 0 <= n <= 23 -> good Hour n (two_digits n) r
| g_short : forall n r, is_digit n -> ~ starts_digit r -> good Hour n (String (digit_char n) "") r
| g_minute : forall n r, 0 <= n <= 59 -> good Minute n (two_digits n) r
| g_second : forall n r, 0 <= n <= 59 -> good Second n (two_digits n) r
| g_whole : forall r, ~ (exists c r', fraction_mark c /\ starts_digit r' /\ r = String c r') -> good Fraction 0 "" r
| g_part : forall c d l r, fraction_mark c -> (forall x, In x (d :: l) -> is_digit x) -> ~ starts_digit r ->
    good Fraction (billionths (d :: l)) (String c (digits_text (d :: l))) r
| g_utc : forall r, good Offset 0 "Z" r
| g_east : forall h m r, 0 <= h <= 24 -> 0 <= m <= 60 -> good Offset (60 * h + m) (String "+" (two_digits h +++ String ":" (two_digits m))) r
| g_west : forall h m r, 0 <= h <= 24 -> 0 <= m <= 60 -> good Offset (- (60 * h + m)) (String "-" (two_digits h +++ String ":" (two_digits m))) r
| g_mark : forall c r, good (Mark c) 0 (String c "") r.
(* The texts that are numbers out of range. *)
Inductive over : part -> string -> Prop :=
| o_month : forall n, n = 0 \/ 13 <= n <= 99 -> over Month (two_digits n)
| o_hour : forall n, 24 <= n <= 99 -> over Hour (two_digits n)
| o_minute : forall n, 60 <= n <= 99 -> over Minute (two_digits n)
| o_second : forall n, 60 <= n <= 99 -> over Second (two_digits n)
| o_hours : forall g h m1 m2, g <> "Z"%char -> 25 <= h <= 99 -> over Offset (String g (two_digits h +++ String ":" (String m1 (String m2 ""))))
| o_minutes : forall g h m, g <> "Z"%char -> 0 <= h <= 99 -> 61 <= m <= 99 -> over Offset (String g (two_digits h +++ String ":" (two_digits m))).
(* A text does not begin with a part at all. *)
Definition bad (p : part) (t : string) : Prop := forall x r, t = x +++ r -> ~ over p x /\ forall v, ~ good p v x r.
Inductive reading : list part -> string -> list Z -> string -> Prop :=
| rd_end : forall t, reading [] t [] t
| rd_part : forall p ps v vs x r s, good p v x r -> reading ps r vs s -> reading (p :: ps) (x +++ r) (v :: vs) s.
(* The instant that a text is read as, with its offset in minutes. *)
Definition reads (t : string) (ns z : Z) : Prop := exists y m d h mi s f n,
  reading rfc3339 t [y; 0; m; 0; d; 0; h; 0; mi; 0; s; f; z] "" /\ day_number (Date y m d) n /\
  ns = 1000000000 * (86400 * n + 3600 * h + 60 * mi + s - 60 * z) + f.

(* What is said about a text that is not read: where the first part that is missing or out of range
   would be, or after it.  The quotation marks are a parameter. *)
Definition part_name (p : part) : string :=
  match p with
  | Year => "year" | Month => "month" | Day => "day of month" | Hour => "hour" | Minute => "minute" | Second => "second"
  | Offset => "UTC offset" | _ => ""
  end.
Definition complaint (quoted : string -> string) (p : part) (r : string) : string :=
  match p with
  | Mark "T" => ": missing required time introducer 'T'"
  | Mark c => match r with
              | "" => ": end of string where " +++ quoted (String c "") +++ " is expected"
              | _ => ": found " +++ quoted r +++ " where " +++ quoted (String c "") +++ " is expected"
              end
  | _ => match r with "" => ": end of string before " +++ part_name p | _ => ": cannot use " +++ quoted r +++ " as " +++ part_name p end
  end.
Inductive refusal (quoted : string -> string) : string -> string -> Prop :=
| rf_bad : forall ps p qs t vs r, ps ++ p :: qs = rfc3339 -> reading ps t vs r -> bad p r -> refusal quoted t (complaint quoted p r)
| rf_over : forall ps p qs t vs x r, ps ++ p :: qs = rfc3339 -> reading ps t vs (x +++ r) -> over p x -> refusal quoted t (complaint quoted p r)
| rf_extra : forall t vs r, reading rfc3339 t vs r -> r <> "" -> refusal quoted t (": cannot use " +++ quoted r +++ " as timestamp segment")
| rf_day : forall t y m d h mi s f z, reading rfc3339 t [y; 0; m; 0; d; 0; h; 0; mi; 0; s; f; z] "" -> ~ is_date (Date y m d) ->
    refusal quoted t ": day out of range".

(* ----- Durations ----- *)

(* The nanoseconds of a unit; for microseconds the micro sign and the Greek letter do too. *)
Inductive unit_ns : string -> Z -> Prop :=
| u_ns : unit_ns "ns" 1
| u_us : unit_ns "us" 1000
| u_micro : unit_ns (String "194" (String "181" "s")) 1000
| u_mu : unit_ns (String "206" (String "188" "s")) 1000
| u_ms : unit_ns "ms" 1000000
| u_s : unit_ns "s" 1000000000
| u_m : unit_ns "m" (60 * 1000000000)
| u_h : unit_ns "h" (3600 * 1000000000).
(* An amount: a number and a unit.  A fraction is one of whole nanoseconds in each place. *)
Inductive amount : Z -> string -> Prop :=
| am_whole : forall l u n, l <> [] -> (forall d, In d l -> is_digit d) -> unit_ns u n -> amount (digits_value l * n) (digits_text l +++ u)
| am_part : forall l f u n p, l ++ f <> [] -> (forall d, In d (l ++ f) -> is_digit d) -> unit_ns u n -> n = 10 ^ Z.of_nat (List.length f) * p ->
    amount (digits_value l * n + digits_value f * p) (digits_text l +++ "." +++ digits_text f +++ u).
Inductive amounts : Z -> string -> Prop :=
| as_one : forall n s, amount n s -> amounts n s
| as_more : forall n s m t, amount n s -> amounts m t -> amounts (n + m) (s +++ t).
Inductive magnitude : Z -> string -> Prop :=
| mg_zero : magnitude 0 "0"
| mg_sum : forall n s, amounts n s -> magnitude n s.
Inductive duration : Z -> string -> Prop :=
| du_plain : forall n s, magnitude n s -> duration n s
| du_plus : forall n s, magnitude n s -> duration n (String "+" s)
| du_minus : forall n s, magnitude n s -> duration (- n) (String "-" s).
(* The same without the values, with any fraction. *)
Inductive amount_form : string -> Prop :=
| af_whole : forall l u n, l <> [] -> (forall d, In d l -> is_digit d) -> unit_ns u n -> amount_form (digits_text l +++ u)
| af_part : forall l f u n, l ++ f <> [] -> (forall d, In d (l ++ f) -> is_digit d) -> unit_ns u n ->
    amount_form (digits_text l +++ "." +++ digits_text f +++ u).
Inductive amounts_form : string -> Prop :=
| fs_one : forall s, amount_form s -> amounts_form s
| fs_more : forall s t, amount_form s -> amounts_form t -> amounts_form (s +++ t).
Definition duration_form (s : string) : Prop :=
  exists t, (t = "0" \/ amounts_form t) /\ (s = t \/ s = String "+" t \/ s = String "-" t).

(* A zone whose offset is a whole number of minutes and less than a day. *)
Definition minutes_zone (local : Z -> Z) : Prop := forall s, exists z, local s = 60 * z /\ -1439 <= z <= 1439.
(* What is asked of the arithmetic with floating numbers: for the k digits f of a fraction of which
   the last place is p nanoseconds it is exact, for units up to the hour.  (All numbers in it are
   whole and less than 2 ^ 53.) *)
Definition exact_part (float_part : Z -> Z -> nat -> Z) : Prop := forall f p k, 0 <= f < 10 ^ Z.of_nat k ->
  10 ^ Z.of_nat k * p <= 3600 * 1000000000 -> float_part f (10 ^ Z.of_nat k * p) k = f * p.
