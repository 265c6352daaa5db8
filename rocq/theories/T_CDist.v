(** The client's calibrators that fit distributions: C196-C202. *)
From Coq Require Import Permutation Lia.
From Verif Require Import Base ListLib M_Stat S_Stat M_COpt M_CUtil S_CUtil M_CCal S_CCal M_CCal2 M_CGradient M_CDist S_CDist P_CDown P_CGauss P_CBct P_CPop P_CZaga2 P_CDistEx.
Local Open Scope Z_scope.

(** C196: members are replaced by the quantiles of the fitted distribution at the levels (e + 1/2) / n, in the order of the members *)
Theorem C196_gaussian : forall sp E ex exq nq pars d fs, shaped d fs -> 0 < d_e d -> sorts_pairs sp -> sqrt_nonneg E -> on_numbers1 ex exq -> positive exq -> (forall t y x, 2 <= zlen (pars t y x)) ->
  exists out, gaussian_calibrator sp E ex nq 0 pars d fs = Ok out /\ shaped d out /\
  forall t y x, 0 <= t < d_t d -> 0 <= y < d_y d -> 0 <= x < d_x d -> forall vs ws, members d fs t y x vs -> members d out t y x ws ->
    (present vs = [] -> ws = vs) /\ (present vs <> [] -> outcome (gaussian_law exq nq (pars t y x) (qmean (present vs)) (ext_sqrt E (qvar (present vs)))) vs ws).
Proof. exact c196_gaussian. Qed.
Print Assumptions C196_gaussian.
Theorem C196_bct : forall sp E ex pw tc tq exq pwq tcq tqq pars d fs, shaped d fs -> 0 < d_e d -> sorts_pairs sp -> sqrt_nonneg E -> exact_functions ex pw tc tq exq pwq tcq tqq -> positive exq -> student tcq tqq -> (forall t y x, 7 <= zlen (pars t y x)) -> no_negative fs ->
  exists out, bct_calibrator sp E ex pw tc tq pars d fs = Ok out /\ shaped d out /\
  forall t y x, 0 <= t < d_t d -> 0 <= y < d_y d -> 0 <= x < d_x d -> forall vs ws, members d fs t y x vs -> members d out t y x ws ->
    (Exists missing vs -> ws = vs) /\ (forall raw, vs = map Fin raw -> no_missing raw -> outcome (bct_law exq pwq tcq tqq (pars t y x) (capped (qz 100) (qmean raw)) (ext_sqrt E (qvar raw))) vs ws).
Proof. exact c196_bct. Qed.
Print Assumptions C196_bct.
Theorem C196_zaga : forall sp ex pw gq exq pwq gqq gcq o thr mx pars d fs, shaped d fs -> 0 < d_e d -> sorts_pairs sp -> on_numbers1 ex exq -> on_nonneg2 pw pwq -> positive exq -> on_numbers3 gq gqq -> gamma_functions gcq gqq ->
  sound_options o thr mx -> z_6h o = false -> z_size o = 0 -> (forall t y x, 8 <= zlen (pars t y x)) -> no_negative fs ->
  exists out, zaga_calibrator sp ex pw gq o pars d fs = Ok out /\ shaped d out /\
  forall t y x, 0 <= t < d_t d -> 0 <= y < d_y d -> 0 <= x < d_x d -> forall vs ws, members d fs t y x vs -> members d out t y x ws ->
    (Exists missing vs -> ws = vs) /\ (forall raw, vs = map Fin raw -> no_missing raw -> outcome (zaga_law exq pwq gqq (pars t y x) (capped mx (qmean raw)) (fraction thr raw)) vs ws).
Proof. exact c196_zaga. Qed.
Print Assumptions C196_zaga.
Example C196_example : shaped (dims2 1 3 1) [row 1 3 [fz 4; fz 1; fz 1]] /\ sorts_pairs sort_pairs /\ sqrt_nonneg E0 /\ exact_functions (lift1 expo) (lift2 (fun x _ => x)) (lift2 tdist) (lift2 tquant) expo (fun x _ => x) tdist tquant /\
  positive expo /\ student tdist tquant /\ gamma_functions gdist gquant /\
  gaussian_calibrator sort_pairs E0 (lift1 expo) (lift3 (fun mu sigma p => mu + sigma * tquant 1 p)%Qc) 0 (fun _ _ _ => [fz 0; fz 0]) (dims2 1 3 1) [row 1 3 [fz 4; fz 1; fz 1]] = Ok [row 1 3 [fz 4; fz 0; fz 2]] /\
  zaga_calibrator sort_pairs (lift1 expo) (lift2 (fun x _ => x)) (lift3 gquant) {| z_frac := fq (1 # 2); z_size := 0; z_max := fz 100; z_6h := false; z_threshold := fq (1 # 2) |}
    (fun _ _ _ => [fz 0; fz 0; fz 0; fz 0; fz (-1); fz 0; fz 0; fz 0]) (dims2 1 3 1) [row 1 3 [fz 4; fz 1; fz 1]] = Ok [row 1 3 [fz 3; fz 0; fq (1 # 3)]].
Proof.
  split; [apply row_shaped; reflexivity|]. split; [exact sort_pairs_ok|]. split; [exact E0_sqrt|]. split; [exact bct_functions|]. split; [exact expo_pos|]. split; [exact student_t|]. split; [exact gamma_g|].
  split; fcalc.
Qed.

(** C197: the quantile of the Box-Cox t-distribution, cut at zero *)
Theorem C197_bct_quantile : forall exq lg pwq tcq tqq par mean std p mu sigma nu tau, positive exq -> (forall x, lg (exq x) = x) -> power pwq -> student tcq tqq -> (0 < p < 1)%Qc -> bct_parameters exq pwq par mean std = Some (mu, sigma, nu, tau) -> (0 < mu)%Qc ->
  exists v, bct_law exq pwq tcq tqq par mean std p = Fin v /\ bct_quantile lg pwq tcq mu sigma nu tau p v.
Proof. exact c197. Qed.
Print Assumptions C197_bct_quantile.
Example C197_example : positive expo /\ (forall x, loga (expo x) = x) /\ power (fun x _ => x) /\ student tdist tquant /\
  bct_parameters expo (fun x _ => x) [fz 0; fz 1; fz 0; fz 0; fz 1; fz 0; fz 1] (qz 3) (qz 1) = Some (qz 3, qz 1, qz 1, qz 2) /\ (0 < qz 3)%Qc.
Proof. split; [exact expo_pos|]. split; [exact loga_expo|]. split; [exact power_p|]. split; [exact student_t|]. split; [vcalc|reflexivity]. Qed.

(** C198: ensembles with missing members are left alone, and points depend on the raw values in their neighbourhood only; the first is part of C196 for bct and zaga.
    Both are false for the gaussian calibrator *)
Theorem C198_gaussian_missing_refuted : exists sp E ex exq nq pars d fs out t y x e v w, shaped d fs /\ sorts_pairs sp /\ sqrt_nonneg E /\ on_numbers1 ex exq /\ positive exq /\ (forall t y x, 2 <= zlen (pars t y x)) /\
  gaussian_calibrator sp E ex nq 0 pars d fs = Ok out /\ element fs t y x e v /\ missing v /\ element out t y x e w /\ ~ missing w.
Proof. exact c198_refuted. Qed.
Print Assumptions C198_gaussian_missing_refuted.
Theorem C198_gaussian_neighbourhood_refuted : exists sp E ex exq nq pars d fs out y x l a vs ws, shaped d fs /\ sorts_pairs sp /\ sqrt_nonneg E /\ on_numbers1 ex exq /\ positive exq /\ (forall t y x, 2 <= zlen (pars t y x)) /\
  gaussian_calibrator sp E ex nq 1 pars d fs = Ok out /\ hood d 1 y x l /\ (forall y' x' e, In (y', x', e) l -> element fs 0 y' x' e (Fin (a (y', x', e))) /\ a (y', x', e) <> missing_number) /\ members d fs 0 y x vs /\ members d out 0 y x ws /\
  ~ outcome (gaussian_law exq nq (pars 0 y x) (qmean (map a l)) (ext_sqrt E (qvar (map a l)))) vs ws.
Proof. exact c198_neighbourhood_refuted. Qed.
Print Assumptions C198_gaussian_neighbourhood_refuted.

(** C199: distribution function and quantiles belong together *)
Theorem C199_zaga : forall ex pw gc gq exq pwq gcq gqq par m fr P0 shape scale, on_numbers1 ex exq -> on_nonneg2 pw pwq -> positive exq -> on_numbers3 gc gcq -> on_numbers3 gq gqq -> gamma_functions gcq gqq -> (0 <= m)%Qc -> (0 <= fr <= 1)%Qc -> 8 <= zlen par ->
  zaga_parameters exq pwq par m fr = Some (P0, shape, scale) ->
  exists F Q, (forall x, (0 <= x)%Qc -> zaga_cdf ex pw gc (Fin m) (Fin fr) par (Fin x) = Ok (Fin (F x))) /\ (forall p, (0 < p < 1)%Qc -> zaga_inv ex pw gq (Fin m) (Fin fr) par (Fin p) = Ok (Fin (Q p))) /\
  (0 < P0 < 1)%Qc /\ F 0%Qc = P0 /\ (forall x, (0 < x)%Qc -> F x = P0 + (1 - P0) * gcq shape scale x)%Qc /\
  (forall x, (0 <= x)%Qc -> 0 <= F x <= 1)%Qc /\ (forall x y, (0 <= x <= y)%Qc -> (F x <= F y)%Qc) /\ (forall p, (0 < p < 1)%Qc -> (0 <= Q p)%Qc) /\ (forall p x, (0 < p < 1)%Qc -> (0 <= x)%Qc -> (Q p <= x <-> p <= F x)%Qc).
Proof. exact c199. Qed.
Print Assumptions C199_zaga.
Theorem C199_zaga_incomplete : forall ex pw gc gq exq pwq gcq gqq par m fr, on_numbers1 ex exq -> on_nonneg2 pw pwq -> positive exq -> on_numbers3 gc gcq -> on_numbers3 gq gqq -> gamma_functions gcq gqq -> (0 <= m)%Qc -> (0 <= fr <= 1)%Qc -> 8 <= zlen par -> known par = None ->
  (forall x, (0 <= x)%Qc -> zaga_cdf ex pw gc (Fin m) (Fin fr) par (Fin x) = Ok (Fin missing_number)) /\ (forall p, (0 < p < 1)%Qc -> zaga_inv ex pw gq (Fin m) (Fin fr) par (Fin p) = Ok (Fin missing_number)).
Proof. exact c199_missing. Qed.
Print Assumptions C199_zaga_incomplete.
Theorem C199_gaussian : forall ex nc nq exq ncq nqq par a b r mean spread, on_numbers1 ex exq -> positive exq -> on_numbers3 nc ncq -> on_numbers3 nq nqq -> (forall mu sigma x, (0 < sigma)%Qc -> 0 <= ncq mu sigma x <= 1)%Qc ->
  known par = Some (a :: b :: r) -> (0 < mean)%Qc -> (0 <= spread)%Qc ->
  (forall x, x <> missing_number -> gaussian_cdf ex nc (Fin mean) (Fin spread) par (Fin x) = Ok (Fin (ncq mean (exq (a + b * spread)%Qc) x))) /\
  (forall p, (0 <= p < 1)%Qc -> gaussian_inv ex nq (Fin mean) (Fin spread) par (Fin p) = Ok (Fin (nqq mean (exq (a + b * spread)%Qc) p))).
Proof. exact c199_gaussian. Qed.
Print Assumptions C199_gaussian.
Example C199_example : let par := [fz 0; fz 0; fz 0; fz 0; fz (-1); fz 0; fz 0; fz 0] in zaga_parameters expo (fun x _ => x) par 1%Qc half = Some (Q2Qc (1 # 3), 1%Qc, 1%Qc) /\
  zaga_cdf (lift1 expo) (lift2 (fun x _ => x)) (lift3 gdist) (fz 1) (Fin half) par (fz 1) = Ok (fq (2 # 3)) /\ zaga_inv (lift1 expo) (lift2 (fun x _ => x)) (lift3 gquant) (fz 1) (Fin half) par (fq (2 # 3)) = Ok (fz 1) /\
  zaga_inv (lift1 expo) (lift2 (fun x _ => x)) (lift3 gquant) (fz 1) (Fin half) par (fq (1 # 4)) = Ok (fz 0) /\ known [fz 0; CMV] = None /\ known [fz 1; fz 2] = Some [qz 1; qz 2].
Proof. cbv zeta. split; [vcalc|]. split; [vcalc|]. split; [vcalc|]. split; [vcalc|]. split; vm_compute; reflexivity. Qed.

(** C200: probability of precipitation, and quantiles of precipitation *)
Theorem C200_probability : forall ex pw gc exq pwq gcq gqq o thr mx T pars d precips pops, on_numbers1 ex exq -> on_nonneg2 pw pwq -> positive exq -> on_numbers3 gc gcq -> gamma_functions gcq gqq ->
  sound_options o thr mx -> z_threshold o = Fin T -> (0 <= T)%Qc -> shaped d precips -> shaped d pops -> no_negative precips -> 0 < d_e d -> (forall t y x, 8 <= zlen (pars t y x)) ->
  exists out, zaga_pop ex pw gc o pars d precips pops = Ok out /\ shaped d out /\
  forall t y x, 0 <= t < d_t d -> 0 <= y < d_y d -> 0 <= x < d_x d -> forall vs ws, members d pops t y x vs -> members d out t y x ws ->
    (t < z_start o -> Forall is_missing_value ws) /\
    (z_start o <= t -> gap d precips (z_size o) (z_window o) t y x -> ws = vs) /\
    (z_start o <= t -> forall l a, hood d (z_size o) y x l -> (forall c, In c l -> amount precips (z_window o) t c (a c)) ->
      forall e w, znth ws e = Ok w -> w = pop_value exq pwq gcq (pars t y x) (capped mx (qmean (map a l))) (fraction thr (map a l)) T).
Proof. exact c200_pop. Qed.
Print Assumptions C200_probability.
Theorem C200_quantile : forall ex pw gq exq pwq gcq gqq o thr mx p pars d precips outs, on_numbers1 ex exq -> on_nonneg2 pw pwq -> positive exq -> on_numbers3 gq gqq -> gamma_functions gcq gqq ->
  sound_options o thr mx -> (0 < p < 1)%Qc -> shaped d precips -> shaped d outs -> no_negative precips -> 0 < d_e d -> (forall t y x, 8 <= zlen (pars t y x)) ->
  exists out, zaga_level ex pw gq o (Fin p) pars d precips outs = Ok out /\ shaped d out /\
  forall t y x, 0 <= t < d_t d -> 0 <= y < d_y d -> 0 <= x < d_x d -> forall vs ws, members d outs t y x vs -> members d out t y x ws ->
    (t < z_start o -> ws = vs) /\
    (z_start o <= t -> gap d precips (z_size o) (z_window o) t y x -> ws = vs) /\
    (z_start o <= t -> forall l a, hood d (z_size o) y x l -> (forall c, In c l -> amount precips (z_window o) t c (a c)) ->
      forall e w, znth ws e = Ok w -> w = zaga_law exq pwq gqq (pars t y x) (capped mx (qmean (map a l))) (fraction thr (map a l)) p).
Proof. exact c200_level. Qed.
Print Assumptions C200_quantile.
Example C200_example : let o := {| z_frac := fz 0; z_size := 1; z_max := fz 100; z_6h := false; z_threshold := fz 1 |} in let par := [fz 0; fz 0; fz 0; fz 0; fz (-1); fz 0; fz 0; fz 0] in
  sound_options o 0%Qc (qz 100) /\ hood (dims2 2 1 1) 1 0 0 [(0, 0, 0); (0, 1, 0)] /\
  zaga_pop (lift1 expo) (lift2 (fun x _ => x)) (lift3 gdist) o (fun _ _ _ => par) (dims2 2 1 1) [row 2 1 [fz 2; fz 4]] [row 2 1 [NaN; NaN]] = Ok [row 2 1 [fq (1 # 3); fq (1 # 3)]] /\
  zaga_pop (lift1 expo) (lift2 (fun x _ => x)) (lift3 gdist) o (fun _ _ _ => par) (dims2 2 1 1) [row 2 1 [fz 2; CMV]] [row 2 1 [NaN; NaN]] = Ok [row 2 1 [NaN; NaN]].
Proof. cbv zeta. split; [repeat split; cbn; lia|]. split; [exact hood_pair|]. split; fcalc. Qed.

(** C201: with a window of six hours, the first times are skipped.  Not so when the precipitation itself is calibrated: values before the first time are read *)
Theorem C201_window_refuted : forall sp ex pw gq o thr mx pars d fs, shaped d fs -> 0 < d_t d -> 0 < d_y d -> 0 < d_x d -> 0 < d_e d -> sound_options o thr mx -> z_6h o = true -> zaga_calibrator sp ex pw gq o pars d fs = UB.
Proof. exact c201. Qed.
Print Assumptions C201_window_refuted.
Example C201_example : shaped (dims2 1 3 1) [row 1 3 [fz 4; fz 1; fz 1]] /\ sound_options {| z_frac := fz 0; z_size := 0; z_max := fz 100; z_6h := true; z_threshold := fz 1 |} 0%Qc (qz 100).
Proof. split; [apply row_shaped; reflexivity|]. repeat split; cbn; lia. Qed.

(** C202: the predictors of training are those of calibration.  The fraction is rounded to 0 or 1 *)
Theorem C202_fraction_refuted : exists E ens thr mean fr, zaga_train_predictors E (Fin thr) ens = Ok (mean, Fin fr) /\ fr <> fraction thr (present ens).
Proof. exact c202_refuted. Qed.
Print Assumptions C202_fraction_refuted.
Theorem C202_predictors_partial : forall E ens thr, present ens <> [] -> exists fr, zaga_train_predictors E (Fin thr) ens = Ok (Fin (qmean (present ens)), Fin fr) /\
  (Forall (fun q => (q <= thr)%Qc) (present ens) -> fr = 1%Qc) /\ (Exists (fun q => (thr < q)%Qc) (present ens) -> fr = 0%Qc).
Proof. exact c202. Qed.
Print Assumptions C202_predictors_partial.
Theorem C202_no_members : forall E ens thr, present ens = [] -> zaga_train_predictors E (Fin thr) ens = Abort.
Proof. exact c202_empty. Qed.
Print Assumptions C202_no_members.
Example C202_example : present [fz 0; CMV; fz 3; NaN] = [qz 0; qz 3] /\ zaga_train_predictors E0 (fz 1) [fz 0; CMV; fz 3; NaN] = Ok (fq (3 # 2), fz 0).
Proof. split; vcalc. Qed.
