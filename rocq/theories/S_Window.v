(** Specification of the moving-window statistic. *)
From Verif Require Import Base M_Stat S_Stat.
From Verif Require Export S_Slice.

(** first and last position of the window at x (may lie outside the series) *)
Definition win_lo (before : bool) (length x : Z) : Z := if before then x - length + 1 else x - (length - 1) / 2.
Definition win_hi (before : bool) (length x : Z) : Z := if before then x else x + (length - 1) / 2.
(** value required at position x of a series *)
Definition window_value (E : ext) (row : vec) (length : Z) (st : statistic) (before keep_missing missing_edges : bool) (x : Z) : res val :=
  let lo := win_lo before length x in
  let hi := win_hi before length x in
  if keep_missing && existsb (fun v => negb (is_valid v)) (slice row lo hi) then Ok MV
  else if missing_edges && ((lo <? 0) || (zlen row <=? hi)) then Ok MV
  else calc_statistic E (slice row lo hi) st.
(** a window length the function accepts *)
Definition length_ok (length : Z) (before : bool) : Prop := 0 < length /\ (before = false -> Z.Odd length).
(** out has the required value at every (case, time) *)
Definition window_matches (E : ext) (nY nX : Z) (array : vec2) (length : Z) (st : statistic) (before km me : bool) (out : vec2) : Prop :=
  rect nY nX out /\
  forall y x row, znth array y = Ok row -> 0 <= x < nX ->
    exists v, get2 out y x = Ok v /\ window_value E row length st before km me x = Ok v.
(** the calls in which the running count before the first element is needed *)
Definition reads_before_buffer (array : vec2) (length : Z) (st : statistic) (km : bool) : Prop :=
  st = Count \/ ((st = Sum \/ st = Mean) /\ km = true) \/
  (st = Mean /\ exists y row, znth array y = Ok row /\ finites (firstn (Z.to_nat length) row) <> []).
