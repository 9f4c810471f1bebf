(** * TimeModel: the text of a time stamp, core/exporter/utils/utils.go:58-64.

    ToIsoTimeStr calls time.Unix(sec, nsec).In(time.UTC).Format(time.RFC3339Nano); the package time (go 1.19) is not in /repo and is
    modelled from its source, with one change: it counts days in uint64 from the first of January of the year -292277022399, which is
    a multiple of 400 years before the year 1, from which they are counted in Z here.  Numbers are written with a fixed number of digits: the
    years of 64 bit nanoseconds have four. *)
From Verif Require Import GoBase.
Open Scope Z_scope.

(** time.Unix *)
Definition go_unix (sec nsec : Z) : Z * Z :=
  if (nsec <? 0) || (1000000000 <=? nsec) then
    let n := Z.quot nsec 1000000000 in
    let sec := sec + n in
    let nsec := nsec - n * 1000000000 in
    if nsec <? 0 then (sec - 1, nsec + 1000000000) else (sec, nsec)
  else (sec, nsec).
(** isLeap *)
Definition is_leap (y : Z) : bool := (y mod 4 =? 0) && (negb (y mod 100 =? 0) || (y mod 400 =? 0)).
(** absDate: year and day of the year, of the day [d] after 0001-01-01. *)
Definition year_yday (d : Z) : Z * Z :=
  let n := d / 146097 in
  let y := 400 * n in
  let d := d - 146097 * n in
  let n := d / 36524 in
  let n := n - n / 4 in
  let y := y + 100 * n in
  let d := d - 36524 * n in
  let n := d / 1461 in
  let y := y + 4 * n in
  let d := d - 1461 * n in
  let n := d / 365 in
  let n := n - n / 4 in
  let y := y + n in
  let d := d - 365 * n in
  (y + 1, d).
(** daysBefore *)
Definition days_before (m : Z) : Z := nth (Z.to_nat m) [0; 31; 59; 90; 120; 151; 181; 212; 243; 273; 304; 334; 365] 0.
(** absDate: month (1 to 12) and day of the month. *)
Definition month_day (leap : bool) (yday : Z) : Z * Z :=
  if leap && (yday =? 59) then (2, 29) else
  let day := if leap && (59 <? yday) then yday - 1 else yday in
  let month := day / 31 in
  let e := days_before (month + 1) in
  if e <=? day then (month + 2, day - e + 1) else (month + 1, day - days_before month + 1).
(** 719162 days from 0001-01-01 to 1970-01-01 *)
Definition civil (day : Z) : Z * Z * Z :=
  let '(y, yd) := year_yday (day + 719162) in
  let '(m, d) := month_day (is_leap y) yd in (y, m, d).
(** appendInt with a width *)
Fixpoint digits (w : nat) (z : Z) : string :=
  match w with
  | O => ""
  | S w' => (digits w' (z / 10) ++ String (ascii_of_nat (Z.to_nat (48 + z mod 10))) "")%string
  end.
(** formatNano with trimming: zeros at the end are dropped, and the point with the last of them. *)
Fixpoint trim_zeros (s : string) : string :=
  match s with
  | EmptyString => ""
  | String c s' => match trim_zeros s' with
                   | EmptyString => if Ascii.eqb c "0"%char then "" else String c ""
                   | t => String c t
                   end
  end.
Definition format_nano (ns : Z) : string := match trim_zeros (digits 9 ns) with EmptyString => "" | t => ("." ++ t)%string end.
(** Format(RFC3339Nano), in UTC *)
Definition go_time (sec nsec : Z) : string :=
  let '(sec, nsec) := go_unix sec nsec in
  let '(y, m, d) := civil (sec / 86400) in
  let r := sec mod 86400 in
  (digits 4 y ++ "-" ++ digits 2 m ++ "-" ++ digits 2 d ++ "T" ++ digits 2 (r / 3600) ++ ":" ++ digits 2 (r mod 3600 / 60) ++ ":" ++ digits 2 (r mod 60) ++
   format_nano nsec ++ "Z")%string.
(** utils.go:58-64 *)
Definition to_iso_time_str (ts : Z) : string := go_time (Z.quot ts 1000000000) (Z.rem ts 1000000000).
