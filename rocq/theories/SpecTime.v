(** * SpecTime: the Gregorian calendar, and what an RFC 3339 time stamp in UTC says. *)
From Verif Require Import GoBase.
Open Scope Z_scope.

Definition date := (Z * Z * Z)%type.          (* year, month, day *)
Definition leap_year (y : Z) : Prop := ((4 | y) /\ ~ (100 | y)) \/ (400 | y).
Definition month_length (y m n : Z) : Prop :=
  (In m [1; 3; 5; 7; 8; 10; 12] /\ n = 31) \/ (In m [4; 6; 9; 11] /\ n = 30) \/ (m = 2 /\ (leap_year y /\ n = 29 \/ ~ leap_year y /\ n = 28)).
Definition valid_date (t : date) : Prop := let '(y, m, d) := t in exists n, month_length y m n /\ 1 <= d <= n.
(** The day after. *)
Inductive tomorrow : date -> date -> Prop :=
| tm_day y m d n : month_length y m n -> 1 <= d < n -> tomorrow (y, m, d) (y, m, d + 1)
| tm_month y m n : month_length y m n -> m < 12 -> tomorrow (y, m, n) (y, m + 1, 1)
| tm_year y : tomorrow (y, 12, 31) (y + 1, 1, 1).
(** [is_date n t]: the day [n] days after 1970-01-01 is [t]. *)
Inductive is_date : Z -> date -> Prop :=
| id_epoch : is_date 0 (1970, 1, 1)
| id_next n t t' : is_date n t -> tomorrow t t' -> is_date (n + 1) t'
| id_prev n t t' : is_date (n + 1) t' -> tomorrow t t' -> is_date n t.

(** Decimal digits. *)
Definition digit_value (c : ascii) : option Z := let n := Z.of_nat (nat_of_ascii c) in if (48 <=? n) && (n <=? 57) then Some (n - 48) else None.
Fixpoint decimal (acc : Z) (s : string) : option Z :=
  match s with
  | EmptyString => Some acc
  | String c s' => match digit_value c with Some v => decimal (10 * acc + v) s' | None => None end
  end.
(** [number w s z]: [s] is [z], in [w] digits. *)
Definition number (w : nat) (s : string) (z : Z) : Prop := slen s = w /\ decimal 0 s = Some z.
(** [fraction s ns]: nothing, or a point and up to nine digits. *)
Inductive fraction : string -> Z -> Prop :=
| fr_none : fraction "" 0
| fr_some s k z : number k s z -> (0 < k <= 9)%nat -> fraction ("." ++ s) (z * 10 ^ (9 - Z.of_nat k)).
(** [says s ts]: the time stamp [s] is the time [ts] nanoseconds after 1970-01-01T00:00:00Z. *)
Definition says (s : string) (ts : Z) : Prop :=
  exists sy sm sd sh si ss sf y m d h i sec ns day,
  s = (sy ++ "-" ++ sm ++ "-" ++ sd ++ "T" ++ sh ++ ":" ++ si ++ ":" ++ ss ++ sf ++ "Z")%string /\
  number 4 sy y /\ number 2 sm m /\ number 2 sd d /\ number 2 sh h /\ number 2 si i /\ number 2 ss sec /\ fraction sf ns /\
  is_date day (y, m, d) /\ h < 24 /\ i < 60 /\ sec < 60 /\
  ts = (((day * 24 + h) * 60 + i) * 60 + sec) * 1000000000 + ns.
