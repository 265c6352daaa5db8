(** Model of the client's date functions, src/client/Util.cpp:165-237.
    Boost's date class is represented by its algorithms (gregorian_calendar_base: day_number, from_day_number, end_of_month_day) on
    unbounded integers.  greg_year, greg_month and greg_day hold an unsigned short and throw a kind of std::out_of_range
    (a logic_error) for values outside 1400..9999, 1..12 and 1..31; so does a day that its month does not have.  The
    simplification is that a day number beyond the range always throws, although Boost reduces it to 32 bits first. *)
From Verif Require Import Base.
From Coq Require Import Qround.
Local Open Scope Z_scope.

Definition ymd := (Z * Z * Z)%type.
(** day_number (all quantities are positive in Boost's range, where C++ division is floor division) *)
Definition day_number (x : ymd) : Z :=
  let '(year, month, day) := x in
  let a := (14 - month) / 12 in
  let y := year + 4800 - a in
  let m := month + 12 * a - 3 in
  day + (153 * m + 2) / 5 + 365 * y + y / 4 - y / 100 + y / 400 - 32045.
(** from_day_number *)
Definition from_day_number (n : Z) : ymd :=
  let a := n + 32044 in
  let b := (4 * a + 3) / 146097 in
  let c := a - (146097 * b) / 4 in
  let d := (4 * c + 3) / 1461 in
  let e := c - (1461 * d) / 4 in
  let m := (5 * e + 2) / 153 in
  (100 * b + d - 4800 + m / 10, m + 3 - 12 * (m / 10), e - (153 * m + 2) / 5 + 1).
(** is_leap_year, end_of_month_day *)
Definition is_leap_year (y : Z) : bool := (y mod 4 =? 0) && (negb (y mod 100 =? 0) || (y mod 400 =? 0)).
Definition end_of_month_day (y m : Z) : Z :=
  if m =? 2 then (if is_leap_year y then 29 else 28)
  else if (m =? 4) || (m =? 6) || (m =? 9) || (m =? 11) then 30 else 31.
Definition u16 (x : Z) : Z := x mod 65536.
(** date(year, month, day): the day number *)
Definition mk_date (year month day : Z) : res Z :=
  let y := u16 year in let m := u16 month in let d := u16 day in
  if negb ((1400 <=? y) && (y <=? 9999)) then Throw LogicError else
  if negb ((1 <=? m) && (m <=? 12)) then Throw LogicError else
  if negb ((1 <=? d) && (d <=? 31)) then Throw LogicError else
  if end_of_month_day y m <? d then Throw LogicError else Ok (day_number (y, m, d)).
(** date.year(), month() and day() *)
Definition date_ymd (n : Z) : res ymd :=
  let '(y, m, d) := from_day_number n in
  if (1400 <=? y) && (y <=? 9999) then Ok (y, m, d) else Throw LogicError.
Definition yyyymmdd (x : ymd) : Z := let '(y, m, d) := x in y * 10000 + m * 100 + d.

(** Util::getDate, Util.cpp:165-171 *)
Definition get_date (t : Z) : res Z :=
  epoch <- mk_date 1970 1 1 ;; x <- date_ymd (epoch + Z.quot t 86400) ;; Ok (yyyymmdd x).
(** Util::getTime, Util.cpp:172-179 *)
Definition get_time (t : Z) : Z :=
  let s := Z.rem t 86400 in
  Z.quot s 3600 * 10000 + Z.rem (Z.quot s 60) 60 * 100 + Z.rem s 60.
(** Util::getUnixTime, Util.cpp:180-196 *)
Definition get_unix_time (date time : Z) : res Z :=
  let hh := Z.quot time 10000 in let mm := Z.rem (Z.quot time 100) 100 in let ss := Z.rem time 100 in
  n <- mk_date (Z.quot date 10000) (Z.rem (Z.quot date 100) 100) (Z.rem date 100) ;;
  epoch <- mk_date 1970 1 1 ;;
  Ok ((n - epoch) * 86400 + (hh * 3600 + mm * 60 + ss)).
(** Util::calcDate, Util.cpp:219-237; converting NaN, infinity or a value beyond the range of int is undefined *)
Definition calc_date (date : Z) (hours : val) : res Z :=
  match hours with
  | Fin h =>
      let off := Qfloor (h / qz 24)%Qc in
      if negb ((-2147483648 <=? off) && (off <=? 2147483647)) then UB else
      n <- mk_date (Z.quot date 10000) (Z.quot (Z.rem date 10000) 100) (Z.rem date 100) ;;
      x <- date_ymd (n + off) ;; Ok (yyyymmdd x)
  | _ => UB
  end.
