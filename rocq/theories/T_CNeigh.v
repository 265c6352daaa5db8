(** The neighbourhood calibrator of the command-line client: C172. *)
From Verif Require Import Base ListLib M_Stat S_Stat S_Neigh M_COpt M_CUtil S_CUtil M_CCal S_CCal P_CCal M_CNeigh S_CNeigh P_CNeigh.
Local Open Scope Z_scope.

(** C172: each point becomes the statistic of the values around it.  A negative radius of a parameter file is not refused *)
Theorem C172_neighbourhood_refuted : exists E p d fs, shaped d fs /\ (forall t, p t = [fz (-1)]) /\ neighbourhood_calibrator E true false CMean (fz 0) 3 (Some (false, p)) d fs = UB.
Proof. exact c172_refuted. Qed.
Print Assumptions C172_neighbourhood_refuted.
Theorem C172_neighbourhood_partial : forall E fast approx st (q : Qc) radius pars r d fs, (st = CQuantile -> 0 <= q <= 1)%Qc -> 0 <= radius -> shaped d fs -> (forall t, 0 <= t < d_t d -> radius_for radius pars t (r t) /\ 0 <= r t) ->
  exists out, neighbourhood_calibrator E fast approx st (Fin q) radius pars d fs = Ok out /\ shaped d out /\
  forall t e, 0 <= t < d_t d -> 0 <= e < d_e d -> exists g, member_grid d fs t e g /\
    forall y x, 0 <= y < d_y d -> 0 <= x < d_x d -> exists w, element out t y x e w /\
      (approx = false \/ ~ takes_levels st -> filtered_value E st q (present (around g (r t) y x)) w) /\
      (takes_levels st -> present (around g (r t) y x) <> [] -> exists v lo hi, w = Fin v /\ is_min (present (around g (r t) y x)) lo /\ is_max (present (around g (r t) y x)) hi /\ (lo <= v <= hi)%Qc).
Proof. exact c172. Qed.
Print Assumptions C172_neighbourhood_partial.
Theorem C172_refused : forall E fast approx st quantile radius pars d fs, (radius < 0 \/ (st = CQuantile /\ forall q, (0 <= q <= 1)%Qc -> quantile <> Fin q) -> neighbourhood_calibrator E fast approx st quantile radius pars d fs = Abort) /\
  (forall p, pars = Some (true, p) -> 0 < d_t d -> shaped d fs -> neighbourhood_calibrator E fast approx st quantile radius pars d fs = Abort).
Proof. exact c172_refused. Qed.
Print Assumptions C172_refused.
Example C172_example : let d := {| d_y := 1; d_x := 4; d_e := 1; d_t := 1 |} in
  let f l := {| f_values := map fz l; f_ny := 1; f_nx := 4; f_ne := 1 |} in
  neighbourhood_calibrator E0 true false CMean (fz 0) 1 None d [f [1; -999; 5; 9]] = Ok [f [1; 3; 7; 7]] /\
  neighbourhood_calibrator E0 true false CMax (fz 0) 1 (Some (false, fun _ => [fz 2])) d [f [4; 1; 5; 9]] = Ok [f [5; 9; 9; 9]] /\
  neighbourhood_calibrator E0 false false CSum (fz 0) 0 None d [f [1; -999; 5; 9]] = Ok [f [1; -999; 5; 9]].
Proof. split; [|split]; vm_compute; do 5 f_equal; veq. Qed.
(** the approximate median is the median of the medians of slivers *)
Example C172_example_approximate : let d := {| d_y := 3; d_x := 3; d_e := 1; d_t := 1 |} in let f := {| f_values := map fz [0; 0; 9; 0; 1; 9; 5; 9; 9]; f_ny := 3; f_nx := 3; f_ne := 1 |} in
  (out <- neighbourhood_calibrator E0 true true CMedian (fz 0) 1 None d [f] ;; get4 out 0 1 1 0) = Ok (fz 1) /\
  (out <- neighbourhood_calibrator E0 true false CMedian (fz 0) 1 None d [f] ;; get4 out 0 1 1 0) = Ok (fz 5).
Proof. split; vcalc. Qed.
