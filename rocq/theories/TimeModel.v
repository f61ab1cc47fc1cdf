(* Model of timestamp, timeadd and timecmp, internal/lang/funcs/datetime.go:15-97 and 143-200, with the
   parts of the package time they rest on.

   Simplifications.  An instant is its seconds since the start of the year 0 and its nanoseconds.
   Messages of ParseDuration are left out.  The library is described from knowledge of it. *)

From Verif Require Import Base CtyModel FuncModel.
From Coq Require Import NArith ZArith.

(* ----- package time (library) ----- *)

Local Open Scope Z_scope.
Definition digit (c : ascii) : option Z :=
  let n := Z.of_N (N_of_ascii c) in if (48 <=? n) && (n <=? 57) then Some (n - 48) else None.
(* parseUint on the next k bytes *)
Fixpoint parse_uint (k : nat) (acc : Z) (s : string) : option (Z * string) :=
  match k with
  | O => Some (acc, s)
  | S k' => match s with
            | String c s' => match digit c with Some d => parse_uint k' (10 * acc + d) s' | None => None end
            | "" => None
            end
  end.
Definition number_in (k : nat) (lo hi : Z) (s : string) : option (Z * string) :=
  match parse_uint k 0 s with
  | Some (n, s') => if (lo <=? n) && (n <=? hi) then Some (n, s') else None
  | None => None
  end.
Definition skip_char (c : ascii) (s : string) : option string :=
  match s with String d s' => if Ascii.eqb c d then Some s' else None | "" => None end.

Definition is_leap (y : Z) : bool := (y mod 4 =? 0) && (negb (y mod 100 =? 0) || (y mod 400 =? 0)).
Definition days_in (m y : Z) : Z :=
  if m =? 2 then (if is_leap y then 29 else 28)
  else if (m =? 4) || (m =? 6) || (m =? 9) || (m =? 11) then 30 else 31.
(* the days of a year before a month, without the leap day *)
Definition days_before (m : Z) : Z :=
  nth (Z.to_nat (m - 1)) [0; 31; 59; 90; 120; 151; 181; 212; 243; 273; 304; 334] 0.
(* Date: the days since the first day of the year 0, which is a leap year *)
Definition days_since (y m d : Z) : Z :=
  365 * y + (y + 3) / 4 - (y + 99) / 100 + (y + 399) / 400 + days_before m + (if is_leap y && (2 <? m) then 1 else 0) + (d - 1).

(* parseNanoseconds: the first nine digits count *)
Fixpoint nanoseconds (k : nat) (scale : Z) (s : string) : Z :=
  match k, s with
  | S k', String c s' => match digit c with Some d => d * scale + nanoseconds k' (scale / 10) s' | None => 0 end
  | _, _ => 0
  end.
Fixpoint skip_digits (s : string) : string :=
  match s with
  | String c s' => match digit c with Some _ => skip_digits s' | None => s end
  | "" => ""
  end.
Definition parse_fraction (s : string) : Z * string :=
  match s with
  | String "." (String c s') =>
    match digit c with
    | Some _ => (nanoseconds 9 100000000 (String c s'), skip_digits s')
    | None => (0, s)
    end
  | _ => (0, s)
  end.
(* the zone: seconds east of UTC, or the letter Z *)
Definition parse_zone (s : string) : option (option Z) :=
  match s with
  | "Z" => Some None
  | String c s' =>
    match number_in 2 0 23 s' with
    | None => None
    | Some (hr, s1) =>
      match skip_char ":" s1 with
      | None => None
      | Some s2 =>
        match number_in 2 0 59 s2 with
        | Some (mm, "") =>
          if Ascii.eqb c "+" then Some (Some ((hr * 60 + mm) * 60))
          else if Ascii.eqb c "-" then Some (Some (- ((hr * 60 + mm) * 60))) else None
        | _ => None
        end
      end
    end
  | "" => None
  end.
Notation "'take' x <- r ; k" := (match r with Some x => k | None => None end) (at level 200, x pattern, r at level 100, k at level 200).
(* parseRFC3339: the bytes are read in order rather than by position. *)
Definition zone_offset (z : option Z) : Z := match z with Some off => off | None => 0 end.
Definition parse_rfc3339 (s : string) : option (Z * Z * option Z) :=
  take (y, s) <- number_in 4 0 9999 s; take s <- skip_char "-" s;
  take (m, s) <- number_in 2 1 12 s; take s <- skip_char "-" s;
  take (d, s) <- number_in 2 1 (days_in m y) s; take s <- skip_char "T" s;
  take (h, s) <- number_in 2 0 23 s; take s <- skip_char ":" s;
  take (mi, s) <- number_in 2 0 59 s; take s <- skip_char ":" s;
  take (sec, s) <- number_in 2 0 59 s;
  let (ns, s) := parse_fraction s in
  take z <- parse_zone s;
  Some (86400 * days_since y m d + 3600 * h + 60 * mi + sec - zone_offset z, ns, z).

(* time.ParseError: the element of the layout, the text at hand, the message *)
Record parse_error := PError { layout_elem : string; value_elem : string; error_message : string }.
Notation "'step' x <- r ; k" := (match r with inl x => k | inr e => inr e end) (at level 200, x pattern, r at level 100, k at level 200).
(* getnum: one or two digits, or two *)
Definition getnum (fixed : bool) (s : string) : option (Z * string) :=
  match s with
  | String c s1 =>
    match digit c with
    | None => None
    | Some a =>
      match s1 with
      | String c' s2 => match digit c' with Some b => Some (10 * a + b, s2) | None => if fixed then None else Some (a, s1) end
      | "" => if fixed then None else Some (a, s1)
      end
    end
  | "" => None
  end.
(* an element of the layout that is a number: a bad one is reported with the text from it on, one
   out of range with the text after it *)
Definition element (layout : string) (r : option (Z * string)) (lo hi : Z) (what s : string) : (Z * string) + parse_error :=
  match r with
  | None => inr (PError layout s "")
  | Some (n, s') =>
    if (lo <=? n) && (n <=? hi) then inl (n, s') else inr (PError layout s' (": " +++ what +++ " out of range"))
  end.
(* skip, for one byte *)
Definition separator (c : ascii) (s : string) : string + parse_error :=
  match skip_char c s with Some s' => inl s' | None => inr (PError (String c "") s "") end.
(* a fraction that is not in the layout *)
Definition loose_fraction (s : string) : Z * string :=
  match s with
  | String p (String c s') =>
    match digit c with
    | Some _ => if Ascii.eqb p "." || Ascii.eqb p "," then (nanoseconds 9 100000000 (String c s'), skip_digits s') else (0, s)
    | None => (0, s)
    end
  | _ => (0, s)
  end.
Definition loose_zone (s : string) : (option Z * string) + parse_error :=
  let bad := inr (PError "Z07:00" s "") in
  match s with
  | String "Z" s' => inl (None, s')
  | String g (String h1 (String h2 (String p (String m1 (String m2 s'))))) =>
    if negb (Ascii.eqb p ":") then bad
    else
      match getnum true (String h1 (String h2 "")), getnum true (String m1 (String m2 "")) with
      | Some (hr, _), mm =>
        if match mm with Some (n, _) => 60 <? n | None => false end then inr (PError "Z07:00" s' ": time zone offset minute out of range")
        else if 24 <? hr then inr (PError "Z07:00" s' ": time zone offset hour out of range")
        else
          match mm with
          | None => bad
          | Some (n, _) =>
            if Ascii.eqb g "+" then inl (Some ((hr * 60 + n) * 60), s')
            else if Ascii.eqb g "-" then inl (Some (- ((hr * 60 + n) * 60)), s') else bad
          end
      | None, _ => bad
      end
  | _ => bad
  end.
(* parse, with the layout 2006-01-02T15:04:05Z07:00; the text in the message on what is left is not
   quoted here, which is of no account, as that message is not used *)
Definition parse_loose (s : string) : (Z * Z * option Z) + parse_error :=
  step (y, s) <- element "2006" (parse_uint 4 0 s) 0 9999 "year" s; step s <- separator "-" s;
  step (m, s) <- element "01" (getnum true s) 1 12 "month" s; step s <- separator "-" s;
  step (d, s) <- element "02" (getnum true s) 0 99 "day" s; step s <- separator "T" s;
  step (h, s) <- element "15" (getnum false s) 0 23 "hour" s; step s <- separator ":" s;
  step (mi, s) <- element "04" (getnum true s) 0 59 "minute" s; step s <- separator ":" s;
  step (sec, s) <- element "05" (getnum true s) 0 59 "second" s;
  let (ns, s) := loose_fraction s in
  step (z, s) <- loose_zone s;
  if negb (String.eqb s "") then inr (PError "" s (": extra text: " +++ s))
  else if (d <? 1) || (days_in m y <? d) then inr (PError "" "" ": day out of range")
  else inl (86400 * days_since y m d + 3600 * h + 60 * mi + sec - zone_offset z, ns, z).
(* Parse with RFC3339: the general parser is asked about what the other does not take. *)
Definition time_parse (s : string) : (Z * Z * option Z) + parse_error :=
  match parse_rfc3339 s with Some x => inl x | None => parse_loose s end.

(* A time: seconds, nanoseconds, and where its clock stands. *)
Inductive location := UTC | Local | Fixed (off : Z).
Record gotime := Time { t_sec : Z; t_nsec : Z; t_loc : location }.

(* Date of a day, by its number since the first day of the year 0. *)
Definition year_of (n : Z) : Z :=
  let y := n * 400 / 146097 in
  if n <? days_since y 1 1 then y - 1 else if days_since (y + 1) 1 1 <=? n then y + 1 else y.
Fixpoint month_of (k : nat) (y n : Z) : Z :=
  match k with
  | O => 1
  | S k' => if days_since y (Z.of_nat k + 1) 1 <=? n then Z.of_nat k + 1 else month_of k' y n
  end.
(* appendInt *)
Fixpoint to_decimal (fuel : nat) (n : Z) (acc : string) : string :=
  match fuel with
  | O => acc
  | S f => if n =? 0 then acc else to_decimal f (n / 10) (String (ascii_of_nat (48 + Z.to_nat (n mod 10))) acc)
  end.
Fixpoint zero_pad (k : nat) : string := match k with O => "" | S k' => String "0" (zero_pad k') end.
Definition append_int (width : nat) (x : Z) : string :=
  let s := to_decimal 20 (Z.abs x) "" in
  (if x <? 0 then "-" else "") +++ zero_pad (width - String.length s) +++ s.
(* Time.Add *)
Definition time_add (t : gotime) (d : Z) : gotime :=
  let n := t_sec t * 1000000000 + t_nsec t + d in Time (n / 1000000000) (n mod 1000000000) (t_loc t).

(* ParseDuration: leadingInt, leadingFraction, the units *)
Fixpoint leading_int (x : Z) (s : string) : option (Z * string) :=
  match s with
  | String c s' =>
    match digit c with
    | Some d => if 2 ^ 63 / 10 <? x then None else if 2 ^ 63 <? x * 10 + d then None else leading_int (x * 10 + d) s'
    | None => Some (x, s)
    end
  | "" => Some (x, s)
  end.
(* the number, how many digits count, the rest *)
Fixpoint leading_fraction (over : bool) (x : Z) (k : nat) (s : string) : Z * nat * string :=
  match s with
  | String c s' =>
    match digit c with
    | Some d =>
      if over then leading_fraction true x k s'
      else if (2 ^ 63 - 1) / 10 <? x then leading_fraction true x k s'
      else if 2 ^ 63 <? x * 10 + d then leading_fraction true x k s'
      else leading_fraction false (x * 10 + d) (S k) s'
    | None => (x, k, s)
    end
  | "" => (x, k, s)
  end.
Fixpoint cut_unit (s : string) : string * string :=
  match s with
  | String c s' =>
    match digit c with
    | Some _ => ("", s)
    | None => if Ascii.eqb c "." then ("", s) else let (u, r) := cut_unit s' in (String c u, r)
    end
  | "" => ("", "")
  end.
(* microseconds also with the micro sign and the Greek letter *)
Definition unit_map : list (string * Z) :=
  [("ns", 1); ("us", 1000); (String "194" (String "181" "s"), 1000); (String "206" (String "188" "s"), 1000);
   ("ms", 1000000); ("s", 1000000000); ("m", 60000000000); ("h", 3600000000000)].

Section Time.
(* the offset of the local zone at an instant; fmt's %q *)
Variable local : Z -> Z.
Variable quoted : string -> string.
(* uint64(float64(f) * (float64(unit) / scale)), for k digits *)
Variable float_part : Z -> Z -> nat -> Z.

(* The clock of a time that was read: the local one where it has the offset that was written. *)
Definition locate (sec : Z) (z : option Z) : location :=
  match z with None => UTC | Some off => if local sec =? off then Local else Fixed off end.
Definition offset_at (t : gotime) : Z := match t_loc t with UTC => 0 | Fixed off => off | Local => local (t_sec t) end.
(* Format with RFC3339: whole seconds *)
Definition format_rfc3339 (t : gotime) : string :=
  let off := offset_at t in
  let s := t_sec t + off in
  let n := s / 86400 in let r := s mod 86400 in
  let y := year_of n in let m := month_of 11 y n in
  append_int 4 y +++ "-" +++ append_int 2 m +++ "-" +++ append_int 2 (n - days_since y m 1 + 1) +++ "T" +++
  append_int 2 (r / 3600) +++ ":" +++ append_int 2 (r / 60 mod 60) +++ ":" +++ append_int 2 (r mod 60) +++
  (if off =? 0 then "Z"
   else let z := Z.quot off 60 in
        (if z <? 0 then "-" else "+") +++ append_int 2 (Z.abs z / 60) +++ ":" +++ append_int 2 (Z.abs z mod 60)).

Fixpoint durations (fuel : nat) (d : Z) (s : string) : option Z :=
  match fuel with
  | O => None
  | S fuel' =>
    match s with
    | "" => Some d
    | String c _ =>
      match digit c, Ascii.eqb c "." with
      | None, false => None
      | _, _ =>
        take (v, s1) <- leading_int 0 s;
        let pre := negb (String.length s =? String.length s1)%nat in
        let '(f, k, s2, post) := match s1 with
          | String "." s1' => let '(f, k, s2) := leading_fraction false 0 0 s1' in (f, k, s2, negb (String.length s1' =? String.length s2)%nat)
          | _ => (0, O, s1, false)
          end in
        if negb pre && negb post then None else
        let (u, s3) := cut_unit s2 in
        if String.eqb u "" then None else
        take unit <- lookup u unit_map;
        if 2 ^ 63 / unit <? v then None else
        let v := v * unit in
        let v := if 0 <? f then v + float_part f unit k else v in
        if (0 <? f) && (2 ^ 63 <? v) then None else
        let d := (d + v) mod 2 ^ 64 in
        if 2 ^ 63 <? d then None else durations fuel' d s3
      end
    end
  end.
Definition unsigned_duration (s : string) : option Z :=
  if String.eqb s "0" then Some 0 else if String.eqb s "" then None else durations (S (String.length s)) 0 s.
Definition parse_duration (s : string) : option Z :=
  match s with
  | String "-" s' => option_map Z.opp (unsigned_duration s')
  | String "+" s' => take d <- unsigned_duration s'; if 2 ^ 63 - 1 <? d then None else Some d
  | _ => take d <- unsigned_duration s; if 2 ^ 63 - 1 <? d then None else Some d
  end.

(* the messages, datetime.go:147-196; an unknown element is a "timestamp segment" *)
Definition element_names : list (string * string) :=
  [("2006", "year"); ("01", "month"); ("02", "day of month"); ("15", "hour"); ("04", "minute"); ("05", "second"); ("Z07:00", "UTC offset")].
Definition timestamp_error (e : parse_error) : string :=
  "not a valid RFC3339 timestamp" +++
  (if String.eqb (layout_elem e) "" && String.eqb (value_elem e) "" && negb (String.eqb (error_message e) "") then error_message e
   else
     let what := match lookup (layout_elem e) element_names with Some w => w | None => "timestamp segment" end in
     if String.eqb (layout_elem e) "T" then ": missing required time introducer 'T'"
     else if String.eqb (layout_elem e) ":" || String.eqb (layout_elem e) "-" then
       (if String.eqb (value_elem e) "" then ": end of string where " +++ quoted (layout_elem e) +++ " is expected"
        else ": found " +++ quoted (value_elem e) +++ " where " +++ quoted (layout_elem e) +++ " is expected")
     else if String.eqb (value_elem e) "" then ": end of string before " +++ what
     else ": cannot use " +++ quoted (value_elem e) +++ " as " +++ what).
(* parseTimestamp, datetime.go:143-200 *)
Definition parse_timestamp (ts : string) : result gotime :=
  match time_parse ts with
  | inl (sec, ns, z) => Ok (Time sec ns (locate sec z))
  | inr e => Err (timestamp_error e)
  end.
(* time.Time.Equal and Before (library) *)
Definition time_equal (a b : gotime) : bool := (t_sec a =? t_sec b) && (t_nsec a =? t_nsec b).
Definition time_before (a b : gotime) : bool := (t_sec a <? t_sec b) || (t_sec a =? t_sec b) && (t_nsec a <? t_nsec b).
(* TimeAddFunc, datetime.go:38-63 *)
Definition timeadd_func : func := mkFunc [plain_param str; plain_param str] None (static str)
  (fun args _ => match args with
   | [v; w] =>
     do a <- as_string v; do t <- parse_timestamp a;
     do b <- as_string w;
     match parse_duration b with
     | Some d => Ok (str_val (format_rfc3339 (time_add t d)))
     | None => Err "time: invalid duration"
     end
   | _ => bad_args
   end).
(* TimeCmpFunc, datetime.go:64-97 *)
Definition timecmp_func : func := mkFunc [plain_param str; plain_param str] None (static numt)
  (fun args _ => match args with
   | [v; w] =>
     do a <- as_string v; do ta <- parse_timestamp a;
     do b <- as_string w; do tb <- parse_timestamp b;
     if time_equal ta tb then Ok (num_val (int_val 0))
     else if time_before ta tb then Ok (num_val (int_val (-1)))
     else Ok (num_val (int_val 1))
   | _ => bad_args
   end).
(* TimestampFunc, datetime.go:15-22.  The reading of the clock, in nanoseconds since the start of the
   year 0 in UTC, is a parameter; UTC() leaves the instant as it is. *)
Definition timestamp_func (now : Z) : func := mkFunc [] None (static str)
  (fun args _ => match args with
   | [] => Ok (str_val (format_rfc3339 (Time (now / 1000000000) (now mod 1000000000) UTC)))
   | _ => bad_args
   end).
(* MakeStaticTimestampFunc, datetime.go:26-34 *)
Definition static_timestamp_func (t : gotime) : func := mkFunc [] None (static str)
  (fun args _ => match args with [] => Ok (str_val (format_rfc3339 t)) | _ => bad_args end).
End Time.
