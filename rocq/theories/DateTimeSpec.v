(** Specification vocabulary: the Gregorian calendar. *)
From Coq Require Import List ZArith Bool.
Import ListNotations.
Open Scope Z_scope.

Definition leap (y : Z) : Prop := (4 | y) /\ (~ (100 | y) \/ (400 | y)).
(** [month_length y m k]: month [m] (1..12) of year [y] has [k] days. *)
Definition month_length (y m k : Z) : Prop :=
  (In m [1; 3; 5; 7; 8; 10; 12] /\ k = 31) \/ (In m [4; 6; 9; 11] /\ k = 30) \/
  (m = 2 /\ leap y /\ k = 29) \/ (m = 2 /\ ~ leap y /\ k = 28).
Definition valid_date (y m d : Z) : Prop := exists k, month_length y m k /\ 1 <= d <= k.
Definition valid_time (h mi s : Z) : Prop := 0 <= h <= 23 /\ 0 <= mi <= 59 /\ 0 <= s <= 59.

(** The day after a date. *)
Inductive next_day : Z * Z * Z -> Z * Z * Z -> Prop :=
| nd_same y m d k : month_length y m k -> d < k -> next_day (y, m, d) (y, m, d + 1)
| nd_month y m d : month_length y m d -> m < 12 -> next_day (y, m, d) (y, m + 1, 1)
| nd_year y : next_day (y, 12, 31) (y + 1, 1, 1).
(** [days_after n a b]: [b] is [n] days after [a]; n may be negative. *)
Inductive days_after : Z -> Z * Z * Z -> Z * Z * Z -> Prop :=
| da_zero a : days_after 0 a a
| da_up n a b c : days_after n a b -> next_day b c -> days_after (n + 1) a c
| da_down n a b c : days_after n a b -> next_day c b -> days_after (n - 1) a c.
