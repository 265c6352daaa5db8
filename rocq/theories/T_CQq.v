(** The qq calibrator of the command-line client: C173-C177. *)
From Coq Require Import Permutation.
From Verif Require Import Base ListLib M_Stat S_Stat S_Interp M_Curve S_Curve M_COpt M_CUtil S_CUtil M_CCal S_CCal M_CCal2 S_CCal2 M_CQq S_CQq P_CQq.
Local Open Scope Z_scope.

(** C173: forecasts are mapped along the curve, and by the policy outside.  Not so for "zero" with a single pair, and not for tied forecasts *)
Theorem C173_curve_refuted :
  (exists l q w, zlen l = 1 /\ qq_calibrator Zero [] [] 2 (fun _ _ _ => pair_values l) (dims1 1) [field1 (Fin q)] = Ok [field1 w] /\
     no_missing (map fst l) /\ no_missing (map snd l) /\ q <> missing_number /\ forall r, w = Fin r -> ~ qq_rule Zero (map snd l) (map fst l) q r) /\
  (exists l q w, qsorted (map snd l) /\ qsorted (map fst l) /\ zlen l = 2 /\ qq_calibrator MeanSlope [] [] 4 (fun _ _ _ => pair_values l) (dims1 1) [field1 (Fin q)] = Ok [field1 w] /\
     no_missing (map fst l) /\ no_missing (map snd l) /\ q <> missing_number /\ w = PInf).
Proof. exact c173_refuted. Qed.
Print Assumptions C173_curve_refuted.
Theorem C173_curve_partial : forall p eO eF num pars d fs, ordinary p -> shaped d fs -> zlen eO = zlen eF -> Z.even num = true ->
  (forall t y x, 0 <= t < d_t d -> 0 <= y < d_y d -> 0 <= x < d_x d -> exists l X Y, pars t y x = pair_values l /\ qq_curve eO eF l X Y /\ X <> [] /\ qsorted X) ->
  exists out, qq_calibrator p (map Fin eO) (map Fin eF) num pars d fs = Ok out /\ shaped d out /\
    forall t y x e v, 0 <= t < d_t d -> within d y x e -> element fs t y x e v -> exists w, element out t y x e w /\
      forall l X Y, pars t y x = pair_values l -> qq_curve eO eF l X Y ->
        (~ (no_missing X /\ no_missing Y) -> w = v) /\
        (no_missing X -> no_missing Y ->
          (missing v -> w = Fin missing_number) /\
          (forall q, v = Fin q -> q <> missing_number -> qq_defined p X q -> (p = Zero -> 2 <= zlen X) -> exists r, w = Fin r /\ qq_rule p X Y q r)).
Proof. exact c173. Qed.
Print Assumptions C173_curve_partial.
Theorem C173_checks : forall p eO eF num pars d fs, zlen eO <> zlen eF \/ Z.odd num = true -> qq_calibrator p eO eF num pars d fs = Abort.
Proof. exact c173_checks. Qed.
Print Assumptions C173_checks.
Example C173_example : let par := pair_values [(qz 1, qz 2); (qz 5, qz 4); (qz 6, qz 8)] in
  let f v := qq_calibrator NearestSlope [fz 10] [fz 9] 6 (fun _ _ _ => par) (dims1 1) [field1 v] in
  f (fz 3) = Ok [field1 (fz 3)] /\ f (fz 1) = Ok [field1 (fz (-1))] /\ f (fz 10) = Ok [field1 (fz 14)] /\ f NaN = Ok [field1 (fz (-999))] /\
  qq_calibrator Zero [] [] 4 (fun _ _ _ => [fz 1; fz 2; fz 3; fz (-999)]) (dims1 1) [field1 (fz 7)] = Ok [field1 (fz 7)].
Proof. do 4 (split; [vm_compute; do 5 f_equal; veq|]). vm_compute; do 5 f_equal; veq. Qed.

(** C174: the order of the members is kept *)
Theorem C174_order_kept : forall p eO eF num pars d fs, ordinary p -> shaped d fs -> zlen eO = zlen eF -> Z.even num = true ->
  (forall t y x, 0 <= t < d_t d -> 0 <= y < d_y d -> 0 <= x < d_x d -> exists l X Y, pars t y x = pair_values l /\ qq_curve eO eF l X Y /\ S_CUtil.increasing X /\ qsorted Y /\ no_missing X /\ no_missing Y /\ 2 <= zlen X) ->
  exists out, qq_calibrator p (map Fin eO) (map Fin eF) num pars d fs = Ok out /\ shaped d out /\
    forall t y x e e' q q', 0 <= t < d_t d -> within d y x e -> within d y x e' -> element fs t y x e (Fin q) -> element fs t y x e' (Fin q') -> q <> missing_number -> q' <> missing_number ->
      (q <= q')%Qc -> exists r r', element out t y x e (Fin r) /\ element out t y x e' (Fin r') /\ (r <= r')%Qc.
Proof. exact c174. Qed.
Print Assumptions C174_order_kept.
Example C174_example : let par := pair_values [(qz 1, qz 2); (qz 5, qz 4); (qz 6, qz 8)] in
  qq_calibrator MeanSlope [] [] 6 (fun _ _ _ => par) {| d_y := 1; d_x := 1; d_e := 4; d_t := 1 |} [{| f_values := map fz [2; 3; 8; 14]; f_ny := 1; f_nx := 1; f_ne := 4 |}] =
    Ok [{| f_values := map fz [1; 3; 6; 11]; f_ny := 1; f_nx := 1; f_ne := 4 |}].
Proof. vm_compute; do 5 f_equal; veq. Qed.

(** C175: equal observations and forecasts change nothing *)
Theorem C175_identity : forall p num pars d fs, ordinary p -> p <> Zero -> shaped d fs -> Z.even num = true ->
  (forall t y x, 0 <= t < d_t d -> 0 <= y < d_y d -> 0 <= x < d_x d -> exists X, pars t y x = pair_values (combine X X) /\ qsorted X /\ X <> []) ->
  exists out, qq_calibrator p [] [] num pars d fs = Ok out /\ shaped d out /\
    forall t y x e q X, 0 <= t < d_t d -> within d y x e -> element fs t y x e (Fin q) -> pars t y x = pair_values (combine X X) -> qq_defined p X q -> element out t y x e (Fin q).
Proof. exact c175. Qed.
Print Assumptions C175_identity.
Example C175_example : let X := [qz 1; qz 3; qz 3; qz 7] in
  qq_calibrator OneToOne [] [] 8 (fun _ _ _ => pair_values (combine X X)) {| d_y := 1; d_x := 1; d_e := 4; d_t := 1 |} [{| f_values := map fz [-2; 3; 5; 14]; f_ny := 1; f_nx := 1; f_ne := 4 |}] =
    Ok [{| f_values := map fz [-2; 3; 5; 14]; f_ny := 1; f_nx := 1; f_ne := 4 |}].
Proof. vm_compute; do 5 f_equal; veq. Qed.

(** C176: training keeps the sorted data, or quantiles of them.  Quantiles of a single pair stop the program *)
Theorem C176_training_refuted : exists E q data, (0 <= q <= 1)%Qc /\ zlen (training_pairs data) = 1 /\ qq_train E [Fin q] [] [] data = Abort.
Proof. exact c176_refuted. Qed.
Print Assumptions C176_training_refuted.
Theorem C176_training_partial : forall E quantiles eO eF data, let l := training_pairs data in zlen eO = zlen eF -> Forall (fun q => (0 <= q <= 1)%Qc) quantiles -> quantiles = [] \/ zlen l <> 1 ->
  exists b X Y, qq_kept quantiles l b /\ qq_curve eO eF b X Y /\ zlen X = zlen Y /\
    qq_train E (map Fin quantiles) (map Fin eO) (map Fin eF) data = Ok (pair_values (combine Y X)).
Proof. exact c176. Qed.
Print Assumptions C176_training_partial.
Example C176_example : let data := [(fz 3, [fz 1; fz 3]); (fz (-999), [fz 7]); (fz 1, [fz 8; NaN]); (fz 5, [NaN]); (fz 2, [fz 4])] in
  qq_train E0 [] [] [] data = Ok (map fz [1; 2; 2; 4; 3; 8]) /\ qq_train E0 [fz 0; Fin (Q2Qc (3#4))] [fz 0] [fz 9] data = Ok [fz 0; fz 2; fz 1; fz 6; Fin (Q2Qc (5#2)); fz 9].
Proof. split; vcalc. Qed.

(** C177: calibrating a forecast of the training data gives the observation of the same rank *)
Theorem C177_ranks : forall E data, let l := training_pairs data in l <> [] -> NoDup (map snd l) ->
  exists par X Y, qq_train E [] [] [] data = Ok par /\ qsorted X /\ Permutation X (map snd l) /\ qsorted Y /\ Permutation Y (map fst l) /\
    forall p num d fs, ordinary p -> (p = Zero -> 2 <= zlen l) -> Z.even num = true -> shaped d fs ->
      exists out, qq_calibrator p [] [] num (fun _ _ _ => par) d fs = Ok out /\ shaped d out /\
        forall t y x e k, 0 <= t < d_t d -> within d y x e -> 0 <= k < zlen l -> element fs t y x e (Fin (qnth X k)) -> element out t y x e (Fin (qnth Y k)).
Proof. exact c177. Qed.
Print Assumptions C177_ranks.
Example C177_example : let data := [(fz 3, [fz 1; fz 3]); (fz 1, [fz 8; NaN]); (fz 2, [fz 4])] in
  (par <- qq_train E0 [] [] [] data ;; qq_calibrator Zero [] [] 6 (fun _ _ _ => par) {| d_y := 1; d_x := 1; d_e := 3; d_t := 1 |} [{| f_values := map fz [2; 8; 4]; f_ny := 1; f_nx := 1; f_ne := 3 |}]) =
    Ok [{| f_values := map fz [1; 3; 2]; f_ny := 1; f_nx := 1; f_ne := 3 |}].
Proof. vm_compute; do 5 f_equal; veq. Qed.
