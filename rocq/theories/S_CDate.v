(** Specification of calendar dates. *)
From Verif Require Import Base M_CDate.
Local Open Scope Z_scope.

(** the Gregorian calendar *)
Definition leap (y : Z) : Prop := (4 | y) /\ (~ (100 | y) \/ (400 | y)).
Definition month_length (y m n : Z) : Prop :=
  (In m [1; 3; 5; 7; 8; 10; 12] /\ n = 31) \/ (In m [4; 6; 9; 11] /\ n = 30) \/ (m = 2 /\ leap y /\ n = 29) \/ (m = 2 /\ ~ leap y /\ n = 28).
Definition a_date (x : ymd) : Prop := let '(y, m, d) := x in exists n, month_length y m n /\ 1 <= d <= n.
(** [y] is the day after [x] *)
Inductive next_day : ymd -> ymd -> Prop :=
| N_day y m d n : month_length y m n -> 1 <= d < n -> next_day (y, m, d) (y, m, d + 1)
| N_month y m n : month_length y m n -> m < 12 -> next_day (y, m, n) (y, m + 1, 1)
| N_year y : next_day (y, 12, 31) (y + 1, 1, 1).
(** [y] is [n] days after [x] *)
Inductive days_after : ymd -> Z -> ymd -> Prop :=
| D_same x : a_date x -> days_after x 0 x
| D_next x n y z : days_after x n y -> next_day y z -> days_after x (n + 1) z
| D_prev x n y z : days_after x n z -> next_day y z -> days_after x (n - 1) y.
Definition epoch : ymd := (1970, 1, 1).
(** the number YYYYMMDD *)
Definition numeral (x : ymd) (n : Z) : Prop := let '(y, m, d) := x in n = y * 10000 + m * 100 + d.
Definition in_years (x : ymd) : Prop := let '(y, _, _) := x in 1400 <= y <= 9999.
Definition a_time (hh mm ss : Z) : Prop := 0 <= hh < 24 /\ 0 <= mm < 60 /\ 0 <= ss < 60.
