(** Dates and times of the command-line client: C137-C139. *)
From Verif Require Import Base M_CDate S_CDate P_CDate.
Local Open Scope Z_scope.

(** C137: converting a unix time to date and time and back gives it again, also before 1970; and the unix time counts the days since 1970 *)
Theorem C137_round_trip : forall t d, get_date t = Ok d -> get_unix_time d (get_time t) = Ok t.
Proof. exact c137_round. Qed.
Print Assumptions C137_round_trip.
Theorem C137_unix_time : forall x d n hh mm ss, numeral x d -> in_years x -> days_after epoch n x -> a_time hh mm ss ->
  get_unix_time d (hh * 10000 + mm * 100 + ss) = Ok (n * 86400 + (hh * 3600 + mm * 60 + ss)) /\
  get_unix_time d (- (hh * 10000 + mm * 100 + ss)) = Ok (n * 86400 - (hh * 3600 + mm * 60 + ss)).
Proof. exact c137_value. Qed.
Print Assumptions C137_unix_time.
Example C137_example : get_date (-951782401) = Ok 19391104 /\ get_time (-951782401) = -1 /\ get_unix_time 19391104 (-1) = Ok (-951782401) /\
  get_unix_time 20000229 123456 = Ok 951827696.
Proof. repeat split; reflexivity. Qed.

(** C138: date and time of a unix time.  False before 1970, where the day is rounded towards 1970; what is given instead *)
Theorem C138_date_and_time_refuted : exists n x hh mm ss d, days_after epoch n x /\ in_years x /\ a_time hh mm ss /\ get_date (n * 86400 + (hh * 3600 + mm * 60 + ss)) = Ok d /\ ~ numeral x d /\
  get_time (n * 86400 + (hh * 3600 + mm * 60 + ss)) < 0.
Proof. exact c138_refuted. Qed.
Print Assumptions C138_date_and_time_refuted.
Theorem C138_date_and_time_partial : forall n x hh mm ss, 0 <= n -> days_after epoch n x -> in_years x -> a_time hh mm ss ->
  let t := n * 86400 + (hh * 3600 + mm * 60 + ss) in
  (exists d, get_date t = Ok d /\ numeral x d) /\ get_time t = hh * 10000 + mm * 100 + ss.
Proof. exact c138. Qed.
Print Assumptions C138_date_and_time_partial.
Theorem C138_any_time : forall t, (exists d x, get_date t = Ok d /\ days_after epoch (Z.quot t 86400) x /\ in_years x /\ numeral x d) \/
  (get_date t = Throw LogicError /\ forall x, days_after epoch (Z.quot t 86400) x -> ~ in_years x).
Proof. exact c138_any. Qed.
Print Assumptions C138_any_time.
Example C138_example : get_date 951827696 = Ok 20000229 /\ get_time 951827696 = 123456.
Proof. split; reflexivity. Qed.

(** C139: adding hours to a date *)
Theorem C139_add_hours : forall x d h, numeral x d -> a_date x -> in_years x -> forall k z, (qz (24 * k) <= h)%Qc -> (h < qz (24 * (k + 1)))%Qc ->
  days_after x k z -> in_years z -> exists d', calc_date d (Fin h) = Ok d' /\ numeral z d'.
Proof. exact c139. Qed.
Print Assumptions C139_add_hours.
Example C139_example : calc_date 20240228 (fz 47) = Ok 20240229 /\ calc_date 20240301 (fz (-1)) = Ok 20240229 /\ calc_date 20240230 (fz 0) = Throw LogicError.
Proof. repeat split; reflexivity. Qed.
