(** Property theorems C22-C24: neighbourhood_quantile_fast and parallel loops. *)
From Verif Require Import Base M_Stat M_Neigh M_Fast M_Sched S_Stat S_Neigh S_Fast S_Sched P_Fast P_Sched P_SchedQ.

(** C22 *)
Theorem C22_quantile_fast_follows_neighbourhood_cdf E :
  (forall input nY nX h T q, rect nY nX input -> 0 < nY -> 0 < nX -> 0 <= h -> qsorted T -> T <> [] -> (0 <= q <= 1)%Qc ->
     exists out, neighbourhood_quantile_fast E input (Fin q) h (map Fin T) = Ok out /\
       filtered nY nX (fun y x => fast_value (finites (around input h y x) = []) (map (frac_le (finites (around input h y x))) T) T (Fin q)) out) /\
  (forall input nY nX h T quantile, rect nY nX input -> 0 < nY -> 0 < nX -> 0 <= h -> qsorted T -> T <> [] ->
     rect 1 1 quantile \/ rect nY nX quantile -> (forall y x q, get2 quantile y x = Ok q -> good_level q) ->
     exists out, quantile_fast2 E input quantile h (map Fin T) = Ok out /\
       filtered nY nX (fun y x v => exists level, level_at quantile y x level /\
         fast_value (finites (around input h y x) = []) (map (frac_le (finites (around input h y x))) T) T level v) out) /\
  (forall input nY nX nE h T quantile, rect3 nY nX nE input -> 0 < nY -> 0 < nX -> 0 < nE -> 0 <= h -> qsorted T -> T <> [] ->
     rect 1 1 quantile \/ rect nY nX quantile -> (forall y x q, get2 quantile y x = Ok q -> good_level q) ->
     exists out, quantile_fast3 E input quantile h (map Fin T) = Ok out /\
       filtered nY nX (fun y x v => exists level, level_at quantile y x level /\
         fast_value (finites (around3 input h y x) = []) (map (fun t => qmean (cell_fracs (around input h y x) t)) T) T level v) out).
Proof. exact (c22_all E). Qed.
Print Assumptions C22_quantile_fast_follows_neighbourhood_cdf.
Example C22_example : rect 1 3 [[fz 1; NaN; fz 3]] /\
  neighbourhood_quantile_fast E0 [[fz 1; NaN; fz 3]] (fq (1#2)) 2 [fz 0; fz 2; fz 4] = Ok [[fz 2; fz 2; fz 2]] /\
  neighbourhood_quantile_fast3 E0 [[[fz 1; NaN]; [fz 3; fz 5]]] (fq (3#4)) 1 [fz 0; fz 2; fz 4] = Ok [[fz 4; fz 4]].
Proof. split; [split; [reflexivity|intros r [<-|[]]; reflexivity]|split; vcalc]. Qed.
Theorem C22_quantile_fast_checks_arguments E input quantile nY nX h thr : rect nY nX input -> 0 < nY -> 0 < nX ->
  (h < 0 -> quantile_fast2 E input quantile h thr = Throw InvalidArgument) /\
  (0 <= h -> (exists y x q, get2 quantile y x = Ok q /\ ~ good_level q) -> quantile_fast2 E input quantile h thr = Throw InvalidArgument) /\
  (0 <= h -> zlen quantile <> 1 -> zlen quantile <> nY -> quantile_fast2 E input quantile h thr = Throw InvalidArgument) /\
  (0 <= h -> (rect 1 1 quantile \/ rect nY nX quantile) -> (forall y x q, get2 quantile y x = Ok q -> good_level q) ->
     quantile_fast2 E input quantile h [] = Ok (map (map (fun _ => MV)) input)).
Proof. exact (quantile_fast2_checks E input quantile nY nX h thr). Qed.
Print Assumptions C22_quantile_fast_checks_arguments.
Example C22_checks_example : quantile_fast2 E0 [[fz 1; NaN]] [[fz 0; fz 2]] 0 [fz 0] = Throw InvalidArgument.
Proof. reflexivity. Qed.

(** C23: holds for one level for all cells, and for one thread; not for a level field and several threads *)
Theorem C23_quantile_fast_schedule_partial E :
  (forall (input : vec2) q nY nX h thr ds out, rect nY nX input -> 0 < nY -> 0 < nX -> covers2 nY nX ds ->
     neighbourhood_quantile_fast E input q h thr = Ok out ->
     (exists r, quantile_fast2_par E input [[q]] h thr ds r) /\ forall r, quantile_fast2_par E input [[q]] h thr ds r -> r = Ok out) /\
  (forall (input : vec3) q nY nX nE h thr ds out, rect3 nY nX nE input -> 0 < nY -> 0 < nX -> 0 < nE -> covers2 nY nX ds ->
     neighbourhood_quantile_fast3 E input q h thr = Ok out ->
     (exists r, quantile_fast3_par E input [[q]] h thr ds r) /\ forall r, quantile_fast3_par E input [[q]] h thr ds r -> r = Ok out) /\
  (forall (input : vec2) quantile nY nX h thr d out, rect nY nX input -> 0 < nY -> 0 < nX -> covers2 nY nX [d] -> rect nY nX quantile ->
     quantile_fast2 E input quantile h thr = Ok out ->
     (exists r, quantile_fast2_par E input quantile h thr [d] r) /\ forall r, quantile_fast2_par E input quantile h thr [d] r -> r = Ok out) /\
  (forall (input : vec3) quantile nY nX nE h thr d out, rect3 nY nX nE input -> 0 < nY -> 0 < nX -> 0 < nE -> covers2 nY nX [d] -> rect nY nX quantile ->
     quantile_fast3 E input quantile h thr = Ok out ->
     (exists r, quantile_fast3_par E input quantile h thr [d] r) /\ forall r, quantile_fast3_par E input quantile h thr [d] r -> r = Ok out).
Proof. exact (c23_partial E). Qed.
Print Assumptions C23_quantile_fast_schedule_partial.
Example C23_example : covers2 2 1 [[(0, 0)]; [(1, 0)]] /\
  neighbourhood_quantile_fast E0 [[fz 0]; [fz 1]] (fq (3#4)) 1 [fz 0; fz 1] = Ok [[fq (1#2)]; [fq (1#2)]].
Proof.
  split; [|vcalc]. intros [y x]. cbn. split; [intros [H|[H|[]]]; injection H as <- <-; lia|].
  intros [Hy Hx]. assert (y = 0 \/ y = 1) as [->| ->] by lia; replace x with 0 by lia; auto.
Qed.
Theorem C23_quantile_fast_schedule_refuted : exists (input quantile : vec2) h thr ds out out', rect 2 1 input /\ rect 2 1 quantile /\ covers2 2 1 ds /\
  quantile_fast2 E0 input quantile h thr = Ok out /\ quantile_fast2_par E0 input quantile h thr ds (Ok out') /\ out' <> out.
Proof. exact c23_refuted. Qed.
Print Assumptions C23_quantile_fast_schedule_refuted.

(** C24 *)
Theorem C24_parallel_rows_equal_sequential_loop {A} n (m0 : list A) body ds : zlen m0 = n -> covers1 n ds ->
  (exists r, par1 m0 body ds r) /\
  (forall k c, steps wr1 body k (start m0 ds) c -> (k <= 2 * length (concat ds))%nat /\ ((exists r, ends c r) \/ exists c', step wr1 body c c')) /\
  (forall out, for1 n m0 body = Ok out -> forall r, par1 m0 body ds r -> r = Ok out) /\
  ((forall out, for1 n m0 body <> Ok out) -> forall r, par1 m0 body ds r -> exists i, 0 <= i < n /\ (forall v, body i <> Ok v) /\ r = fail_of (body i)).
Proof. exact (par1_all n m0 body ds). Qed.
Print Assumptions C24_parallel_rows_equal_sequential_loop.
Theorem C24_parallel_cells_equal_sequential_loop {A} nY nX (m0 : list (list A)) body ds : rect nY nX m0 -> 0 <= nX -> covers2 nY nX ds ->
  (exists r, par2 m0 body ds r) /\
  (forall k c, steps wr2 (fun i => body (fst i) (snd i)) k (start m0 ds) c -> (k <= 2 * length (concat ds))%nat /\
     ((exists r, ends c r) \/ exists c', step wr2 (fun i => body (fst i) (snd i)) c c')) /\
  (forall out, for2 nY nX m0 body = Ok out -> forall r, par2 m0 body ds r -> r = Ok out) /\
  ((forall out, for2 nY nX m0 body <> Ok out) -> forall r, par2 m0 body ds r ->
     exists y x, 0 <= y < nY /\ 0 <= x < nX /\ (forall v, body y x <> Ok v) /\ r = fail_of (body y x)).
Proof. exact (par2_all nY nX m0 body ds). Qed.
Print Assumptions C24_parallel_cells_equal_sequential_loop.
Example C24_example : covers1 2 [[1; 0]; [0]; []] /\ for1 2 [fz 7; fz 8] (fun i => Ok (fz (i + 1))) = Ok [fz 1; fz 2].
Proof. split; [intros i; cbn; lia|vcalc]. Qed.
