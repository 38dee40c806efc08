(** Model of src/base/DateTime.cpp and src/base/TimeSpan.cpp.
    Simplifications: the C library functions mktime and localtime are those of the Gregorian
    calendar in UTC without leap seconds (64-bit time_t); tm_wday and tm_yday are left out;
    strings are plain character lists (the String class is verified separately); the double
    quotient of operator- is the exact quotient, truncated. *)
From Coq Require Import List ZArith Bool.
From Verif Require Import Base StringModel.
Import ListNotations.
Open Scope Z_scope.

(** C int arithmetic: overflow is undefined behaviour. *)
Definition INT_MIN : Z := -2147483648.
Definition INT_MAX : Z := 2147483647.
Definition int_ok (z : Z) : bool := (INT_MIN <=? z) && (z <=? INT_MAX).
Definition ck (z : Z) : res Z := if int_ok z then Ok z else UB.
(** Conversion of a 64-bit script integer to int (DateTimeModule.cpp 25-32: arguments of the
    constructor; 52-79: add functions). *)
Definition cast_int (z : Z) : Z := (z + 2147483648) mod 4294967296 - 2147483648.

(** struct tm, the fields used (DateTime.h 54). *)
Record tm := Tm { t_year : Z; t_mon : Z; t_mday : Z; t_hour : Z; t_min : Z; t_sec : Z }.

(** DateTime::_isLeapYear, DateTime.cpp 126-129. *)
Definition isLeap (y : Z) : bool :=
  ((Z.rem y 4 =? 0) && negb (Z.rem y 100 =? 0)) || (Z.rem y 400 =? 0).

(** Number of days from 1970-01-01 to a day of the Gregorian calendar, month 1..12 (C library). *)
Definition dayno (y m d : Z) : Z :=
  let y' := if m <=? 2 then y - 1 else y in
  let doy := (153 * (if m <=? 2 then m + 9 else m - 3) + 2) / 5 + d - 1 in
  (y' / 400) * 146097 + ((y' mod 400) * 365 + (y' mod 400) / 4 - (y' mod 400) / 100 + doy) - 719468.
(** The calendar date of a day number (C library). *)
Definition civil (n : Z) : Z * Z * Z :=
  let z := n + 719468 in
  let era := z / 146097 in
  let doe := z mod 146097 in
  let yoe := (doe - doe / 1460 + doe / 36524 - doe / 146096) / 365 in
  let doy := doe - (365 * yoe + yoe / 4 - yoe / 100) in
  let mp := (5 * doy + 2) / 153 in
  let d := doy - (153 * mp + 2) / 5 + 1 in
  let m := if mp <? 10 then mp + 3 else mp - 9 in
  let y := yoe + era * 400 + (if m <=? 2 then 1 else 0) in
  (y, m, d).

(** mktime: seconds since 1970; fields may be out of range (C library). *)
Definition mktime (t : tm) : Z :=
  let y := t_year t + 1900 + t_mon t / 12 in
  let m := t_mon t mod 12 + 1 in
  (dayno y m 1 + (t_mday t - 1)) * 86400 + t_hour t * 3600 + t_min t * 60 + t_sec t.
(** localtime (C library). *)
Definition localtime (s : Z) : tm :=
  let '(y, m, d) := civil (s / 86400) in
  Tm (y - 1900) (m - 1) d (s mod 86400 / 3600) ((s mod 86400) mod 3600 / 60) ((s mod 86400) mod 3600 mod 60).
(** mktime also stores the normalised fields back. *)
Definition norm (t : tm) : tm := localtime (mktime t).

(** enum period, DateTime.h 13. *)
Definition p_undefined := 0. Definition p_AM := 1. Definition p_PM := 2.

(** DateTime::DateTime(year,...), DateTime.cpp 19-74; throwing is [Thr]. *)
Definition dt_new (year month day hour minute second period : Z) : res tm :=
  if (month <? 1) || (12 <? month) then Thr else
  if day <? 1 then Thr else
  if ((month =? 1) || (month =? 3) || (month =? 5) || (month =? 7) || (month =? 8) || (month =? 10) || (month =? 12)) && (31 <? day) then Thr else
  if ((month =? 4) || (month =? 6) || (month =? 9) || (month =? 11)) && (30 <? day) then Thr else
  if (month =? 2) && isLeap year && (29 <? day) then Thr else
  if (month =? 2) && negb (isLeap year) && (28 <? day) then Thr else
  do hour' <- (if period =? p_undefined then
                 if (hour <? 0) || (23 <? hour) then Thr else Ok hour
               else if negb (period =? p_AM) && negb (period =? p_PM) then Thr
               else if (hour <? 1) || (12 <? hour) then Thr
               else if (hour =? 12) && (period =? p_AM) then Ok 0
               else if (period =? p_PM) && (hour <? 12) then Ok (hour + 12)
               else Ok hour);
  if (minute <? 0) || (59 <? minute) then Thr else
  if (second <? 0) || (59 <? second) then Thr else
  do y <- ck (year - 1900);
  Ok (norm (Tm y (month - 1) day hour' minute second)).
(** DateTimeModule_constructor, DateTimeModule.cpp 15-34. *)
Definition script_new (year month day hour minute second : Z) : res tm :=
  dt_new (cast_int year) (cast_int month) (cast_int day) (cast_int hour) (cast_int minute) (cast_int second) p_undefined.

(** Getters, DateTime.cpp 284-312. *)
Definition getYear (t : tm) : Z := t_year t + 1900.
Definition getMonth (t : tm) : Z := t_mon t + 1.
Definition getDay (t : tm) : Z := t_mday t.
Definition getHour (t : tm) : Z := t_hour t.
Definition getMinute (t : tm) : Z := t_min t.
Definition getSecond (t : tm) : Z := t_sec t.
(** DateTime::isLeapYear(), DateTime.cpp 386-389, and the static one, 391-395. *)
Definition isLeapYear (t : tm) : bool := isLeap (getYear t).
Definition isLeapYear_static (y : Z) : res bool :=
  do t <- dt_new y 1 1 0 0 0 p_undefined; Ok (isLeapYear t).

(** DateTime::addYears, DateTime.cpp 330-333. *)
Definition addYears (t : tm) (n : Z) : res tm :=
  do y <- ck (t_year t + n); Ok (Tm y (t_mon t) (t_mday t) (t_hour t) (t_min t) (t_sec t)).
(** DateTime::addMonths, DateTime.cpp 335-352; the ceil is applied to an integer quotient. *)
Definition addMonths (t : tm) (n : Z) : res tm :=
  let nb_year := Z.quot n 12 in
  let nb := Z.rem n 12 in
  do s <- ck (t_mon t + nb);
  if 11 <? s then
    do y <- ck (t_year t + (nb_year + 1));
    Ok (Tm y (s - 12) (t_mday t) (t_hour t) (t_min t) (t_sec t))
  else
    do y <- ck (t_year t + nb_year);
    Ok (Tm y s (t_mday t) (t_hour t) (t_min t) (t_sec t)).
(** DateTime::addSeconds, DateTime.cpp 369-384. *)
Definition addSeconds (t : tm) (n : Z) : tm := localtime (mktime t + n).
(** addDays, addHours, addMinutes, DateTime.cpp 354-367: the product is an int. *)
Definition addDays (t : tm) (n : Z) : res tm := do s <- ck (n * 86400); Ok (addSeconds t s).
Definition addHours (t : tm) (n : Z) : res tm := do s <- ck (n * 3600); Ok (addSeconds t s).
Definition addMinutes (t : tm) (n : Z) : res tm := do s <- ck (n * 60); Ok (addSeconds t s).

(** Comparison operators, DateTime.cpp 505-533. *)
Definition dt_lt (a b : tm) : bool := mktime a <? mktime b.
Definition dt_gt (a b : tm) : bool := mktime b <? mktime a.
Definition dt_le (a b : tm) : bool := negb (mktime b <? mktime a).
Definition dt_ge (a b : tm) : bool := negb (mktime a <? mktime b).
Definition dt_eq (a b : tm) : bool := mktime a =? mktime b.
Definition dt_ne (a b : tm) : bool := negb (mktime a =? mktime b).

(** class TimeSpan, TimeSpan.h 29-33. *)
Record timespan := TS { ts_days : Z; ts_hours : Z; ts_minutes : Z; ts_seconds : Z }.
(** TimeSpan::TimeSpan, TimeSpan.cpp 16-33. *)
Definition ts_new (d h m s : Z) : res timespan :=
  if (h <? -23) || (23 <? h) then Thr else
  if (m <? -59) || (59 <? m) then Thr else
  if (s <? -59) || (59 <? s) then Thr else Ok (TS d h m s).
(** getTotalHours, getTotalMinutes, getTotalSeconds, TimeSpan.cpp 55-68. *)
Definition ts_totalHours (t : timespan) : res Z :=
  do a <- ck (ts_days t * 24); ck (a + ts_hours t).
Definition ts_totalMinutes (t : timespan) : res Z :=
  do a <- ck (ts_days t * 60); do b <- ck (a * 24); do c <- ck (b + ts_hours t * 60); ck (c + ts_minutes t).
Definition ts_totalSeconds (t : timespan) : res Z :=
  do a <- ck (ts_days t * 60); do b <- ck (a * 60); do b' <- ck (b * 24);
  do c <- ck (b' + ts_hours t * 60 * 60); do d <- ck (c + ts_minutes t * 60); ck (d + ts_seconds t).
(** operator< and the others, TimeSpan.cpp 70-123. *)
Definition ts_lt (a b : timespan) : bool :=
  if ts_days a <? ts_days b then true else if ts_days b <? ts_days a then false else
  if ts_hours a <? ts_hours b then true else if ts_hours b <? ts_hours a then false else
  if ts_minutes a <? ts_minutes b then true else if ts_minutes b <? ts_minutes a then false else
  ts_seconds a <? ts_seconds b.
Definition ts_gt (a b : timespan) : bool := ts_lt b a.
Definition ts_le (a b : timespan) : bool := negb (ts_gt a b).
Definition ts_ge (a b : timespan) : bool := negb (ts_lt a b).
Definition ts_eq (a b : timespan) : bool :=
  (ts_days a =? ts_days b) && (ts_hours a =? ts_hours b) && (ts_minutes a =? ts_minutes b) && (ts_seconds a =? ts_seconds b).
Definition ts_ne (a b : timespan) : bool := negb (ts_eq a b).

(** operator-, DateTime.cpp 535-577; mktime has normalised both operands before the getters run. *)
Definition dt_sub (a0 b0 : tm) : res timespan :=
  let a := norm a0 in let b := norm b0 in
  do days <- ck (Z.quot (mktime a0 - mktime b0) 86400);
  if dt_ge a b then ts_new days (getHour a - getHour b) (getMinute a - getMinute b) (getSecond a - getSecond b)
  else
    let '(seconds, minutes) :=
      if getSecond b <? getSecond a then (getSecond a - getSecond b - 60, 1) else (getSecond a - getSecond b, 0) in
    let '(minutes, hours) :=
      if getMinute b <? getMinute a then (minutes + (getMinute a - getMinute b - 60), 1) else (minutes + (getMinute a - getMinute b), 0) in
    let hours :=
      if getHour b <? getHour a then hours + (getHour a - getHour b - 24) else hours + (getHour a - getHour b) in
    ts_new days hours minutes seconds.

(** sprintf "%0<w>d" of a number (C library), numbers of at most 11 digits. *)
Fixpoint digits (fuel : nat) (n : Z) : list Z :=
  match fuel with
  | O => []
  | S f => (if n <? 10 then [] else digits f (n / 10)) ++ [48 + n mod 10]
  end.
Definition fmt_d (w : Z) (n : Z) : list Z :=
  let neg := n <? 0 in
  let ds := digits 20 (Z.abs n) in
  let pad := repeat 48 (Z.to_nat (w - Z.of_nat (length ds) - (if neg then 1 else 0))) in
  (if neg then [45] else []) ++ pad ++ ds.

(** DateTime::toString(), DateTime.cpp 131-143. *)
Definition dt_toString (t : tm) : list Z :=
  fmt_d 0 (getYear t) ++ [45] ++ fmt_d 2 (getMonth t) ++ [45] ++ fmt_d 2 (getDay t) ++ [32] ++
  fmt_d 2 (getHour t) ++ [58] ++ fmt_d 2 (getMinute t) ++ [58] ++ fmt_d 2 (getSecond t).

Definition lower_c (c : Z) : Z := if (65 <=? c) && (c <=? 90) then c + 32 else c.
Definition letter (c : Z) : bool := ((97 <=? c) && (c <=? 122)) || ((65 <=? c) && (c <=? 90)).
Definition leq (a b : list Z) : bool := if list_eq_dec Z.eq_dec a b then true else false.

(** Section of toString(format), DateTime.cpp 170-256. *)
Definition section (t : tm) (p : list Z) : list Z :=
  if leq p [121; 121; 121; 121] then fmt_d 4 (getYear t)
  else if leq p [121; 121] then fmt_d 2 (Z.rem (getYear t) 100)
  else if leq p [77; 77] then fmt_d 2 (getMonth t)
  else if leq p [77] then fmt_d 1 (getMonth t)
  else if leq p [100; 100] then fmt_d 2 (getDay t)
  else if leq p [100] then fmt_d 1 (getDay t)
  else if leq p [72; 72] then fmt_d 2 (getHour t)
  else if leq p [72] then fmt_d 1 (getHour t)
  else if leq p [104; 104] then
    if getHour t =? 0 then [49; 50] else if 12 <? getHour t then fmt_d 2 (getHour t - 12) else fmt_d 2 (getHour t)
  else if leq p [104] then
    if getHour t =? 0 then [49; 50] else if 12 <? getHour t then fmt_d 1 (getHour t - 12) else fmt_d 1 (getHour t)
  else if leq p [109; 109] then fmt_d 2 (getMinute t)
  else if leq p [109] then fmt_d 1 (getMinute t)
  else if leq p [115; 115] then fmt_d 2 (getSecond t)
  else if leq p [115] then fmt_d 1 (getSecond t)
  else if leq p [116; 116] then (if 12 <=? getHour t then [80; 77] else [65; 77])
  else [].
(** The loop of toString(format), DateTime.cpp 155-267: [p] is pattern_temp, [ret] is retVal. *)
Fixpoint fmt_loop (t : tm) (l : list Z) (p ret : list Z) : list Z :=
  match l with
  | [] => ret
  | c :: l' =>
      let p1 := if letter c then
                  match p with [] => [c] | _ => if c =? last p 0 then p ++ [c] else p end
                else p in
      let fire := match p1 with
                  | [] => false
                  | _ => negb (c =? last p1 0) || (match l' with [] => true | _ => false end)
                  end in
      let ret1 := if fire then ret ++ section t p1 else ret in
      let p2 := if fire then [] else p1 in
      if letter c then fmt_loop t l' (match p2 with [] => [c] | _ => p2 end) ret1
      else fmt_loop t l' p2 (ret1 ++ [c])
  end.
(** DateTime::toString(format), DateTime.cpp 145-270. *)
Definition dt_format (t : tm) (format : list Z) : list Z :=
  match map lower_c format with [] => dt_toString t | f => fmt_loop t f [] [] end.

(** strtol base 10 on the digits found (C library); None when there is no digit. *)
Fixpoint atoi (l : list Z) (acc : option Z) : option Z :=
  match l with
  | c :: l' => if (48 <=? c) && (c <=? 57) then atoi l' (Some (match acc with Some a => a | None => 0 end * 10 + (c - 48))) else acc
  | [] => acc
  end.
Fixpoint skip_blank (l : list Z) : list Z :=
  match l with
  | c :: l' => if (c =? 32) || ((9 <=? c) && (c <=? 13)) then skip_blank l' else l
  | [] => []
  end.
Definition strtol (l : list Z) : option Z :=
  match skip_blank l with
  | 45 :: l' => match atoi l' None with Some v => Some (- v) | None => None end
  | 43 :: l' => atoi l' None
  | l' => atoi l' None
  end.
(** DateTime::_parseIntValue, DateTime.cpp 482-497. *)
Definition parse_int_value (i n : nat) (v : list Z) : res Z :=
  match strtol (firstn n (skipn i v)) with Some z => Ok (cast_int z) | None => Thr end.
(** The six values and the period being filled by parse. *)
Record fields := F { f_y : Z; f_mo : Z; f_d : Z; f_h : Z; f_mi : Z; f_s : Z; f_p : Z }.
(** The section part of parse, DateTime.cpp 433-471. *)
Definition parse_section (p : list Z) (i : nat) (v : list Z) (f : fields) : res fields :=
  if Nat.leb (i + length p) (length v) then
    let num := parse_int_value i (length p) v in
    if leq p [121; 121; 121; 121] then do z <- num; Ok (F z (f_mo f) (f_d f) (f_h f) (f_mi f) (f_s f) (f_p f))
    else if leq p [77; 77] then do z <- num; Ok (F (f_y f) z (f_d f) (f_h f) (f_mi f) (f_s f) (f_p f))
    else if leq p [100; 100] then do z <- num; Ok (F (f_y f) (f_mo f) z (f_h f) (f_mi f) (f_s f) (f_p f))
    else if leq p [72; 72] then do z <- num; Ok (F (f_y f) (f_mo f) (f_d f) z (f_mi f) (f_s f) (f_p f))
    else if leq p [104; 104] then do z <- num; Ok (F (f_y f) (f_mo f) (f_d f) z (f_mi f) (f_s f) p_AM)
    else if leq p [109; 109] then do z <- num; Ok (F (f_y f) (f_mo f) (f_d f) (f_h f) z (f_s f) (f_p f))
    else if leq p [115; 115] then do z <- num; Ok (F (f_y f) (f_mo f) (f_d f) (f_h f) (f_mi f) z (f_p f))
    else if leq p [116; 116] then
      let w := firstn 2 (skipn i v) in
      if leq w [65; 77] then Ok (F (f_y f) (f_mo f) (f_d f) (f_h f) (f_mi f) (f_s f) p_AM)
      else if leq w [80; 77] then Ok (F (f_y f) (f_mo f) (f_d f) (f_h f) (f_mi f) (f_s f) p_PM)
      else Thr
    else Ok f
  else Ok f.
(** The loop of parse, DateTime.cpp 417-478: [i] index_char, [p] pattern_temp, [fi]
    pattern_firstindex, [isl] is_letter, which is never reset. Reading the last character of an
    empty pattern (432) throws (String::operator[] with a negative index). *)
Fixpoint parse_loop (l : list Z) (i : nat) (p : list Z) (fi : nat) (isl : bool) (v : list Z) (f : fields) : res fields :=
  match l with
  | [] => Ok f
  | c :: l' =>
      let '(isl, p, fi) :=
        if letter c then
          match p with
          | [] => (true, [c], i)
          | _ => if c =? last p 0 then (true, p ++ [c], fi) else (true, p, fi)
          end
        else (isl, p, fi) in
      match p with
      | [] => Thr
      | _ =>
        do r <- (if negb (c =? last p 0) || (match l' with [] => true | _ => false end)
                 then do f' <- parse_section p fi v f; Ok (f', @nil Z) else Ok (f, p));
        let '(f', p') := r in
        match p' with
        | [] => if isl then parse_loop l' (S i) [c] i isl v f' else parse_loop l' (S i) [] fi isl v f'
        | _ => parse_loop l' (S i) p' fi isl v f'
        end
      end
  end.
(** DateTime::parse, DateTime.cpp 408-480. *)
Definition dt_parse (format value : list Z) : res tm :=
  match format with
  | [] => Thr
  | _ => do f <- parse_loop format 0 [] 0 false value (F 1970 1 1 0 0 0 p_undefined);
         dt_new (f_y f) (f_mo f) (f_d f) (f_h f) (f_mi f) (f_s f) (f_p f)
  end.
