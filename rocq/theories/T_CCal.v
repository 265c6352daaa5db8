(** Calibrators of the command-line client: C149-C156 and C162. *)
From Coq Require Import Permutation.
From Verif Require Import Base M_Stat S_Stat M_COpt M_CUtil S_CUtil M_CCal S_CCal P_CCal M_CCal2 S_CCal2 P_CCal2.
Local Open Scope Z_scope.

(** C149: accumulation gives the sums of the values up to each time, the first time excluded.  False when a partial sum is -999 *)
Theorem C149_accumulate_refuted : exists d fs s q t out, shaped d fs /\ series fs 0 0 0 s (d_t d) /\ 0 <= t < d_t d /\ (forall k, 0 <= k < d_t d -> s k = Fin (q k) /\ q k <> missing_number) /\
  accumulate d fs = Ok out /\ ~ element out t 0 0 0 (Fin (total q t)).
Proof. exact c149_refuted. Qed.
Print Assumptions C149_accumulate_refuted.
Theorem C149_accumulate_partial : forall d fs, shaped d fs -> exists out, accumulate d fs = Ok out /\ shaped d out /\
  forall y x e s, within d y x e -> series fs y x e s (d_t d) -> forall t, 0 <= t < d_t d ->
    (forall q, (forall k, 1 <= k <= t -> s k = Fin (q k) /\ q k <> missing_number) -> (forall k, 1 <= k < t -> total q k <> missing_number) -> element out t y x e (Fin (total q t))) /\
    ((exists k, 1 <= k <= t /\ missing (s k)) -> element out t y x e (Fin missing_number)).
Proof. exact c149. Qed.
Print Assumptions C149_accumulate_partial.
Theorem C149_accumulate_amounts : forall d fs, shaped d fs -> exists out, accumulate d fs = Ok out /\
  forall y x e s q t, within d y x e -> series fs y x e s (d_t d) -> 0 <= t < d_t d -> (forall k, 1 <= k <= t -> s k = Fin (q k) /\ (0 <= q k)%Qc) ->
    element out t y x e (Fin (total q t)) /\ (0 <= total q t)%Qc /\ (t + 1 < d_t d -> forall r, s (t + 1) = Fin r -> (0 <= r)%Qc -> exists w, element out (t + 1) y x e (Fin w) /\ (total q t <= w)%Qc).
Proof. exact c149_amounts. Qed.
Print Assumptions C149_accumulate_amounts.
Example C149_example : shaped (dims1 4) (map field1 [fz 9; fz 2; fz 3; CMV]) /\ accumulate (dims1 4) (map field1 [fz 9; fz 2; fz 3; CMV]) = Ok (map field1 [fz 0; fz 2; fz 5; CMV]).
Proof. split; [apply (shaped1 [fz 9; fz 2; fz 3; CMV])|vcalc]. Qed.

(** C150: deaccumulation gives differences over the window, and is the inverse of accumulation *)
Theorem C150_deaccumulate : forall window d fs, shaped d fs -> 0 <= window -> exists out, deaccumulate window d fs = Ok out /\ shaped d out /\
  forall y x e s, within d y x e -> series fs y x e s (d_t d) -> forall t, 0 <= t < d_t d -> exists w, element out t y x e w /\
    (t < window -> is_missing_value w) /\
    (window <= t -> (missing (s t) \/ missing (s (t - window)) -> is_missing_value w) /\
      (forall a b, s t = Fin a -> s (t - window) = Fin b -> a <> missing_number -> b <> missing_number -> w = Fin (a - b)%Qc)).
Proof. exact c150. Qed.
Print Assumptions C150_deaccumulate.
Theorem C150_inverse_of_accumulate : forall d fs, shaped d fs -> exists acc out, accumulate d fs = Ok acc /\ deaccumulate 1 d acc = Ok out /\ shaped d out /\
  forall y x e s q t, within d y x e -> series fs y x e s (d_t d) -> 1 <= t < d_t d ->
    (forall k, 1 <= k <= t -> s k = Fin (q k) /\ q k <> missing_number) -> (forall k, 1 <= k <= t -> total q k <> missing_number) -> element out t y x e (s t).
Proof. exact c150_inverse. Qed.
Print Assumptions C150_inverse_of_accumulate.
Example C150_example : shaped (dims1 4) (map field1 [fz 0; fz 2; fz 5; fz 9]) /\ deaccumulate 2 (dims1 4) (map field1 [fz 0; fz 2; fz 5; fz 9]) = Ok (map field1 [CMV; CMV; fz 5; fz 7]).
Proof. split; [apply (shaped1 [fz 0; fz 2; fz 5; fz 9])|vcalc]. Qed.

(** C151: sorting puts the members that are present in increasing order, followed by missing ones.  False with NaN: undefined behaviour *)
Theorem C151_sort_refuted : exists d fs, shaped d fs /\ 0 < d_e d /\ sort_calibrator d fs = UB.
Proof. exact c151_refuted. Qed.
Print Assumptions C151_sort_refuted.
Theorem C151_sort_partial : forall d fs, shaped d fs -> 0 < d_e d -> (forall t y x e v, element fs t y x e v -> v <> NaN) ->
  exists out, sort_calibrator d fs = Ok out /\ shaped d out /\
  forall t y x, 0 <= t < d_t d -> 0 <= y < d_y d -> 0 <= x < d_x d -> forall vs ws, members d fs t y x vs -> members d out t y x ws -> sorted_present vs ws.
Proof. exact c151. Qed.
Print Assumptions C151_sort_partial.
Example C151_example :
  let d := {| d_y := 1; d_x := 2; d_e := 3; d_t := 1 |} in
  let f := {| f_values := [fz 3; CMV; fz 1; fz 5; fz 4; fz 5]; f_ny := 1; f_nx := 2; f_ne := 3 |} in
  shaped d [f] /\ sort_calibrator d [f] = Ok [{| f_values := [fz 1; fz 3; CMV; fz 4; fz 5; fz 5]; f_ny := 1; f_nx := 2; f_ne := 3 |}].
Proof. split; [|vcalc]. repeat split; try (cbn; lia). repeat constructor; cbn; lia. Qed.

(** C152: each value becomes the one for the number of thresholds it has passed *)
Theorem C152_threshold : forall thr values equals d fs, shaped d fs -> increasing_thresholds thr -> zlen values = zlen thr + 1 -> (forall l, equals = Some l -> zlen l = zlen thr) ->
  let es := match equals with Some l => l | None => map (fun _ => 0) thr end in
  exists out, threshold_calibrator (map Fin thr) values equals d fs = Ok out /\ shaped d out /\
  forall t y x e v, 0 <= t < d_t d -> within d y x e -> element fs t y x e v ->
    exists w, element out t y x e w /\ (missing v -> w = v) /\ forall q, v = Fin q -> q <> missing_number -> znth values (passed q thr es) = Ok w.
Proof. exact c152. Qed.
Print Assumptions C152_threshold.
Theorem C152_sizes_checked : forall thr values equals d fs, (zlen values <> zlen thr + 1 \/ exists l, equals = Some l /\ zlen l <> zlen thr) -> threshold_calibrator thr values equals d fs = Abort.
Proof. exact c152_checks. Qed.
Print Assumptions C152_sizes_checked.
Example C152_example : increasing_thresholds [qz 1; qz 3] /\ passed (qz 3) [qz 1; qz 3] [0; 1] = 1 /\ passed (qz 1) [qz 1; qz 3] [0; 1] = 1 /\
  threshold_calibrator (map Fin [qz 1; qz 3]) [fz 10; fz 20; fz 30] (Some [0; 1]) (dims1 4) (map field1 [fz 1; fz 3; fz 4; CMV]) = Ok (map field1 [fz 20; fz 20; fz 30; CMV]).
Proof. split; [repeat constructor; vm_compute; reflexivity|]. split; [reflexivity|]. split; [reflexivity|vcalc]. Qed.

(** C153: quality control clamps values to the bounds *)
Theorem C153_clamp : forall (lo hi : option Qc) d fs, shaped d fs ->
  (forall q, lo = Some q -> q <> missing_number) -> (forall q, hi = Some q -> q <> missing_number) -> (forall a b, lo = Some a -> hi = Some b -> (a <= b)%Qc) ->
  let bound o := match o with Some q => Fin q | None => Fin missing_number end in
  exists out, qc_calibrator (bound lo) (bound hi) d fs = Ok out /\ shaped d out /\
  forall t y x e v, 0 <= t < d_t d -> within d y x e -> element fs t y x e v ->
    exists w, element out t y x e w /\ (missing v -> w = v) /\
      forall q, v = Fin q -> q <> missing_number -> exists r, w = Fin r /\
        (forall a, lo = Some a -> a <= r /\ (q < a -> r = a))%Qc /\ (forall b, hi = Some b -> r <= b /\ (b < q -> r = b))%Qc /\
        ((forall a, lo = Some a -> a <= q)%Qc -> (forall b, hi = Some b -> q <= b)%Qc -> r = q).
Proof. exact c153. Qed.
Print Assumptions C153_clamp.
Example C153_example : qc_calibrator (fz 0) (fz 10) (dims1 4) (map field1 [fz (-1); fz 3; fz 12; CMV]) = Ok (map field1 [fz 0; fz 3; fz 10; CMV]) /\
  qc_calibrator CMV (fz 10) (dims1 2) (map field1 [fz (-1); fz 12]) = Ok (map field1 [fz (-1); fz 10]).
Proof. split; vcalc. Qed.

(** C154: where there is precipitation the clouds are at least the given value, and otherwise unchanged *)
Theorem C154_cloud : forall (value : Qc) d precips clouds, shaped d precips -> shaped d clouds ->
  exists out, cloud_calibrator (Fin value) d precips clouds = Ok out /\ shaped d out /\
  forall t y x e p c, 0 <= t < d_t d -> within d y x e -> element precips t y x e p -> element clouds t y x e c ->
    exists w, element out t y x e w /\
      (missing p \/ missing c -> w = c) /\
      (forall pq cq, p = Fin pq -> c = Fin cq -> pq <> missing_number -> cq <> missing_number ->
        (pq <= 0 -> w = c)%Qc /\ (0 < pq -> (value <= cq -> w = c) /\ (cq < value -> w = Fin value))%Qc).
Proof. exact c154. Qed.
Print Assumptions C154_cloud.
Example C154_example : cloud_calibrator (fq (3#4)) (dims1 4) (map field1 [fz 0; fz 2; fz 2; CMV]) (map field1 [fq (1#2); fq (1#2); fz 1; fq (1#2)]) = Ok (map field1 [fq (1#2); fq (3#4); fz 1; fq (1#2)]).
Proof. vcalc. Qed.

(** C155: the precipitation phase follows the temperature.  As documented, false: precipitation equal to the limit counts as none *)
Theorem C155_phase_refuted : exists minPrecip snow rain d temps precips phases out, shaped d temps /\ shaped d precips /\ shaped d phases /\ (snow < rain)%Qc /\
  phase_calibrator (Fin minPrecip) (Fin snow) (Fin rain) d temps precips phases = Ok out /\
  exists Tq pq, element temps 0 0 0 0 (Fin Tq) /\ element precips 0 0 0 0 (Fin pq) /\ ~ (pq < minPrecip)%Qc /\ (Tq < snow)%Qc /\ element out 0 0 0 0 (fz 0).
Proof. exact c155_refuted. Qed.
Print Assumptions C155_phase_refuted.
Theorem C155_phase_partial : forall (minPrecip snow rain : Qc) d temps precips phases, shaped d temps -> shaped d precips -> shaped d phases -> (snow <= rain)%Qc ->
  exists out, phase_calibrator (Fin minPrecip) (Fin snow) (Fin rain) d temps precips phases = Ok out /\ shaped d out /\
  forall t y x e T p, 0 <= t < d_t d -> within d y x e -> element temps t y x e T -> element precips t y x e p ->
    exists w, element out t y x e w /\ (missing T \/ missing p -> is_missing_value w) /\
    forall Tq pq, T = Fin Tq -> p = Fin pq -> Tq <> missing_number -> pq <> missing_number ->
      (pq < minPrecip -> w = fz 0)%Qc /\ (minPrecip < pq -> (rain < Tq -> w = fz 1) /\ (snow < Tq /\ Tq <= rain -> w = fz 2) /\ (Tq < snow -> w = fz 3))%Qc /\
      (pq = minPrecip -> w = fz 0) /\ (minPrecip < pq -> Tq = snow -> w = fz 3)%Qc.
Proof. exact c155. Qed.
Print Assumptions C155_phase_partial.
Example C155_example : phase_calibrator (fq (1#5)) (fz 0) (fz 2) (dims1 5) (map field1 [fz 1; fz (-1); fz 1; fz 3; CMV]) (map field1 [fz 0; fz 1; fz 1; fz 1; fz 1]) (map field1 [CMV; CMV; CMV; CMV; CMV]) =
  Ok (map field1 [fz 0; fz 3; fz 2; fz 1; CMV]).
Proof. vcalc. Qed.

(** C156: moving windows in time give the statistic of the values in the window *)
Theorem C156_window : forall E length before edgeMissing keepMissing st (q : Qc) d fs, shaped d fs -> 1 <= length -> (st = CQuantile -> 0 <= q <= 1)%Qc ->
  exists out, window_calibrator E length before edgeMissing keepMissing st (Fin q) d fs = Ok out /\ shaped d out /\
  forall y x e s t l, within d y x e -> series fs y x e s (d_t d) -> 0 <= t < d_t d -> window_times length before (d_t d) t l ->
    exists w, element out t y x e w /\
      (edgeMissing = true -> zlen l < length -> is_missing_value w) /\
      (keepMissing = true -> Exists missing (map s l) -> is_missing_value w) /\
      (edgeMissing = false \/ zlen l = length -> keepMissing = false \/ ~ Exists missing (map s l) -> client_statistic E st q (present (map s l)) w).
Proof. exact c156. Qed.
Print Assumptions C156_window.
Theorem C156_arguments_checked : forall E length before edgeMissing keepMissing st (q : Qc) d fs, length < 1 \/ (st = CQuantile /\ ~ (0 <= q <= 1)%Qc) ->
  window_calibrator E length before edgeMissing keepMissing st (Fin q) d fs = Abort.
Proof. exact c156_checks. Qed.
Print Assumptions C156_arguments_checked.
Example C156_example : window_times 3 false 4 0 [0; 1] /\ window_times 3 false 4 1 [0; 1; 2] /\
  window_calibrator E0 3 false true false CSum (fz 0) (dims1 4) (map field1 [fz 1; fz 2; CMV; fz 4]) = Ok (map field1 [CMV; fz 3; fz 6; CMV]) /\
  window_calibrator E0 2 true false true CMax (fz 0) (dims1 4) (map field1 [fz 1; fz 2; CMV; fz 4]) = Ok (map field1 [fz 1; fz 2; CMV; CMV]).
Proof.
  split; [|split; [|split; vcalc]].
  - split; [repeat constructor|]. intros tt. cbn [In]. split.
    + intros H. split; [lia|]. exists 1, 1. lia.
    + intros [H (b & a & H1 & H2 & H3)]. lia.
  - split; [repeat constructor|]. intros tt. cbn [In]. split.
    + intros H. split; [lia|]. exists 1, 1. lia.
    + intros [H (b & a & H1 & H2 & H3)]. lia.
Qed.

(** C162: shuffling orders the new members as the old ones were *)
Theorem C162_shuffle : forall sort_pairs before after, sorts_pairs sort_pairs -> zlen before = zlen after -> no_missing before -> no_missing after ->
  exists r, shuffle sort_pairs (map Fin before) (map Fin after) = Ok (map Fin r) /\ Permutation r after /\
  forall i j, 0 <= i < zlen before -> 0 <= j < zlen before -> (qnth before i < qnth before j)%Qc -> (qnth r i <= qnth r j)%Qc.
Proof. exact c162. Qed.
Print Assumptions C162_shuffle.
Theorem C162_unchanged : forall sort_pairs before after, zlen before <> zlen after \/ Exists missing before \/ Exists missing after -> shuffle sort_pairs before after = Ok after.
Proof. exact c162_unchanged. Qed.
Print Assumptions C162_unchanged.
Example C162_example : no_missing [qz 5; qz 1; qz 3] /\ no_missing [qz 10; qz 20; qz 30] /\
  shuffle (fun _ => [(fz 1, 1); (fz 3, 2); (fz 5, 0)]) (map Fin [qz 5; qz 1; qz 3]) (map Fin [qz 10; qz 20; qz 30]) = Ok (map Fin [qz 30; qz 10; qz 20]).
Proof. split; [repeat constructor; discriminate|]. split; [repeat constructor; discriminate|vcalc]. Qed.
