(** Verification scores of a 2x2 table: a hits, b false alarms, c misses, d correct rejections. *)
From Verif Require Import Base S_Stat M_Score.

Definition q1 : Qc := qz 1.
Definition expected_hits (a b c d : Qc) : Qc := ((a + b) * (a + c) / (a + b + c + d))%Qc.
(** numerator and denominator of each score *)
Definition score_num (a b c d : Qc) (m : metric) : Qc :=
  match m with
  | Ets => (a - expected_hits a b c d)%Qc
  | Ts => a
  | Pc => (a + d)%Qc
  | Kss => (a * d - b * c)%Qc
  | Hss => (qz 2 * (a * d - b * c))%Qc
  | Bias => (qz 2 * (if qleb b c then b else c))%Qc
  | BadMetric => 0%Qc
  end.
Definition score_den (a b c d : Qc) (m : metric) : Qc :=
  match m with
  | Ets => (a + b + c - expected_hits a b c d)%Qc
  | Ts => (a + b + c)%Qc
  | Pc => (a + b + c + d)%Qc
  | Kss => ((a + c) * (b + d))%Qc
  | Hss => ((a + c) * (c + d) + (a + b) * (b + d))%Qc
  | Bias => (b + c)%Qc
  | BadMetric => 0%Qc
  end.
Definition score_lo (m : metric) : Qc := match m with Ets => (- (qz 1 / qz 3))%Qc | Kss | Hss => (- qz 1)%Qc | _ => 0%Qc end.
(** number of pairs (observation, forecast) with the given outcome *)
Definition outcome (t ft : Qc) (obs_event fcst_event : bool) (p : Qc * Qc) : bool :=
  eqb (qltb t (fst p)) obs_event && eqb (qltb ft (snd p)) fcst_event.
Definition tally (t ft : Qc) (obs_event fcst_event : bool) (l : list (Qc * Qc)) : Z := zlen (filter (outcome t ft obs_event fcst_event) l).
