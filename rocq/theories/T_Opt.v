(** Threshold optimisation, gamma quantiles and statistic names (C99-C103). *)
From Coq Require Import String.
From Verif Require Import Base QcTac M_Score M_Opt S_Stat S_Score S_Opt P_Opt.
Local Open Scope Z_scope.

(** C99 *)
Theorem C99_optimal_threshold : forall B R F t m, brent_ok B -> length R = length F -> F <> [] -> m <> BadMetric ->
  exists v, get_optimal_threshold B (map Fin R) (map Fin F) (Fin t) m = Ok v /\ (v = MV \/ exists x, v = Fin x /\ useful R F t m x).
Proof. exact c99_all. Qed.
Print Assumptions C99_optimal_threshold.
Theorem C99_unknown_metric : forall B R F t, length R = length F -> F <> [] -> get_optimal_threshold B (map Fin R) (map Fin F) (Fin t) BadMetric = Throw InvalidArgument.
Proof. exact c99_bad. Qed.
Print Assumptions C99_unknown_metric.
Example C99_example : brent_ok B0 /\ get_optimal_threshold B0 (map fz [1; 1; 0; 1]) (map fz [0; 2; 1; 9]) (fz 0) Ts = Ok (fz 0) /\
  useful (map qz [1; 1; 0; 1]) (map qz [0; 2; 1; 9]) (qz 0) Ts (qz 0).
Proof.
  split; [exact brent_ok_B0|]. split; [vcalc|]. split; [split; exists (qz 0); (split; [cbn; auto|vm_compute; discriminate])|].
  exists (Q2Qc (1 # 2)). split; [left; split; [vm_compute; discriminate|vcalc]|reflexivity].
Qed.

(** C100 *)
Theorem C100_boundary_kept_refuted : exists B R F t m a x s, brent_ok B /\ length R = length F /\ F <> [] /\ m <> BadMetric /\
  least F a /\ get_optimal_threshold B (map Fin R) (map Fin F) (Fin t) m = Ok (Fin x) /\
  score_is (combine R F) t x m (Some s) /\ score_is (combine R F) t a m (Some s).
Proof. exact c100_refuted. Qed.
Print Assumptions C100_boundary_kept_refuted.
Theorem C100_interior_removed_refuted : exists R F t m a b x sa sb s, length R = length F /\ least F a /\ greatest F b /\ (a < x)%Qc /\ (x < b)%Qc /\
  score_is (combine R F) t a m (Some sa) /\ score_is (combine R F) t b m (Some sb) /\ score_is (combine R F) t x m (Some s) /\
  (sa + qz 1 <= s)%Qc /\ (sb + Q2Qc (1 # 2) <= s)%Qc /\
  forall B, brent_ok B -> get_optimal_threshold B (map Fin R) (map Fin F) (Fin t) m = Ok MV.
Proof. exact c100_refuted2. Qed.
Print Assumptions C100_interior_removed_refuted.
Theorem C100_boundary_partial : forall B R F t m, brent_ok B -> length R = length F -> F <> [] -> m <> BadMetric ->
  exists v, get_optimal_threshold B (map Fin R) (map Fin F) (Fin t) m = Ok v /\
  forall x a b sa sb, v = Fin x -> least F a -> greatest F b -> score_is (combine R F) t a m (Some sa) -> score_is (combine R F) t b m (Some sb) ->
  exists s, score_is (combine R F) t x m (Some s) /\ ~ near (- s) sa /\ ~ near (- s) sb.
Proof. exact c100_partial. Qed.
Print Assumptions C100_boundary_partial.
Example C100_example : get_optimal_threshold B0 (map fz [1; 1]) (map fz [0; 1]) (fz 0) Ts = Ok (fz 0).
Proof. vcalc. Qed.

(** C101 *)
Theorem C101_optimizer_curve : forall B R F T m, brent_ok B -> length R = length F -> F <> [] -> m <> BadMetric ->
  exists xs ts, metric_optimizer_curve B (map Fin R) (map Fin F) (map Fin T) m = Ok (map Fin xs, map Fin ts) /\
  subseq ts T /\ Forall2 (fun t x => useful R F t m x /\ get_optimal_threshold B (map Fin R) (map Fin F) (Fin t) m = Ok (Fin x)) ts xs /\
  (forall t, In t T -> In t ts \/ get_optimal_threshold B (map Fin R) (map Fin F) (Fin t) m = Ok MV).
Proof. exact c101_all. Qed.
Print Assumptions C101_optimizer_curve.
Theorem C101_size_error : forall B ref fcst T m, zlen ref <> zlen fcst -> metric_optimizer_curve B ref fcst T m = Throw InvalidArgument.
Proof. exact c101_errors. Qed.
Print Assumptions C101_size_error.
Example C101_example : metric_optimizer_curve B0 (map fz [1; 1; 0; 1]) (map fz [0; 2; 1; 9]) (map fz [0; 1; 0]) Ts = Ok (map fz [0; 0], map fz [0; 0]) /\
  get_optimal_threshold B0 (map fz [1; 1; 0; 1]) (map fz [0; 2; 1; 9]) (fz 1) Ts = Ok MV.
Proof. split; vcalc. Qed.

(** C102 *)
Theorem C102_gamma_quantiles_partial : forall q lv sh sc, gquant_ok q -> zlen lv = zlen sh -> zlen sc = zlen sh ->
  (forall l, In l lv -> level_ok l /\ l <> Fin 1%Qc) -> (forall s, In s sh -> positive s) -> (forall c, In c sc -> positive c) ->
  exists out, gamma_inv q lv sh sc = Ok out /\ zlen out = zlen sh /\
  forall i l s c, znth lv i = Ok l -> znth sh i = Ok s -> znth sc i = Ok c -> exists x, znth out i = Ok (Fin x) /\ q s c l = Ok (Fin x) /\ (0 <= x)%Qc.
Proof. exact c102_all. Qed.
Print Assumptions C102_gamma_quantiles_partial.
Theorem C102_gamma_monotone : forall q lv lv' sh sc out out', gquant_ok q -> zlen lv = zlen sh -> zlen lv' = zlen sh -> zlen sc = zlen sh ->
  (forall l, In l lv -> level_ok l /\ l <> Fin 1%Qc) -> (forall l, In l lv' -> level_ok l /\ l <> Fin 1%Qc) -> (forall s, In s sh -> positive s) -> (forall c, In c sc -> positive c) ->
  gamma_inv q lv sh sc = Ok out -> gamma_inv q lv' sh sc = Ok out' ->
  forall i l l', znth lv i = Ok (Fin l) -> znth lv' i = Ok (Fin l') -> exists x x', znth out i = Ok (Fin x) /\ znth out' i = Ok (Fin x') /\
  (l < l' -> x < x')%Qc /\ (l = l' -> x = x')%Qc /\ (l = 0 -> x = 0)%Qc.
Proof. exact c102_monotone. Qed.
Print Assumptions C102_gamma_monotone.
Theorem C102_gamma_errors : forall q lv sh sc, zlen lv = zlen sh -> zlen sc = zlen sh ->
  (exists l, In l lv /\ ~ level_ok l) \/ (exists s, In s sh /\ ~ positive s) \/ (exists c, In c sc /\ ~ positive c) ->
  gamma_inv q lv sh sc = Throw InvalidArgument.
Proof. exact c102_errors. Qed.
Print Assumptions C102_gamma_errors.
Theorem C102_level_one_refuted : exists lv sh sc, zlen lv = zlen sh /\ zlen sc = zlen sh /\ (forall l, In l lv -> level_ok l) /\ (forall s, In s sh -> positive s) /\ (forall c, In c sc -> positive c) /\
  forall q, gquant_ok q -> gamma_inv q lv sh sc = Abort.
Proof. exact c102_one_refuted. Qed.
Print Assumptions C102_level_one_refuted.
Theorem C102_sizes_refuted : exists lv sh sc, zlen lv <> zlen sh /\ (forall l, In l lv -> level_ok l /\ l <> Fin 1%Qc) /\ (forall s, In s sh -> positive s) /\ (forall c, In c sc -> positive c) /\
  forall q, gamma_inv q lv sh sc = UB.
Proof. exact c102_sizes_refuted. Qed.
Print Assumptions C102_sizes_refuted.
Example C102_example : gquant_ok Q0 /\ gamma_inv Q0 [fz 0; fq (1 # 2); fq (3 # 4)] (map fz [1; 2; 3]) (map fz [1; 1; 2]) = Ok (map fz [0; 2; 18]) /\
  gamma_inv Q0 [fq (1 # 2); fz 1] (map fz [1; 2]) (map fz [1; 1]) = Abort.
Proof. split; [exact gquant_ok_Q0|]. split; vcalc. Qed.

(** C103 *)
Theorem C103_names_refuted : exists n s, In (n, s) stat_names /\ get_statistic n <> s.
Proof. exact c103_refuted. Qed.
Print Assumptions C103_names_refuted.
Theorem C103_names_partial : (forall n s, In (n, s) stat_names -> n <> "variance"%string -> get_statistic n = s) /\
  (forall n, (forall s, ~ In (n, s) stat_names) -> get_statistic n = Unknown) /\
  (forall n s, get_statistic n = s -> s <> Unknown -> In (n, s) stat_names).
Proof. exact c103_partial. Qed.
Print Assumptions C103_names_partial.
Example C103_example : In ("median"%string, Median) stat_names /\ get_statistic "median" = Median /\ get_statistic "Median" = Unknown.
Proof. split; [cbn; auto 6|]. split; reflexivity. Qed.
