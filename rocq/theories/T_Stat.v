(** Property theorems C01-C07: statistics, quantiles, evenly spaced quantiles. *)
From Verif Require Import Base M_Stat S_Stat P_Stat P_Quant P_Even P_StatAll.

(** C01: the result depends only on the collection of finite values: order and missing entries do not matter;
    the listed statistics never throw; without finite values the result is missing (Count: 0). *)
Theorem C01_statistics_ignore_missing_and_order :
  (forall E a b st, stat_listed st -> same_finites a b -> calc_statistic E a st = calc_statistic E b st) /\
  (forall a b, Permutation a b -> same_finites a b) /\
  (forall a b v, is_valid v = false -> same_finites (a ++ v :: b) (a ++ b)) /\
  (forall E a st, stat_listed st -> exists v, calc_statistic E a st = Ok v /\
     (finites a = [] -> v = if stat_eqb st Count then fz 0 else MV) /\ (finites a <> [] -> is_valid v = true)).
Proof. exact c01_all. Qed.
Print Assumptions C01_statistics_ignore_missing_and_order.
Example C01_example :
  same_finites [fz 3; NaN; fz 1] [PInf; fz 1; NInf; fz 3] /\
  calc_statistic {| ext_sqrt := fun x => x; ext_rand := 0 |} [fz 3; NaN; fz 1] Median = Ok (fz 2).
Proof. split; [unfold same_finites; cbn; constructor|vcalc]. Qed.

(** C02 *)
Theorem C02_statistics_have_their_value E a : finites a <> [] ->
  let l := finites a in
  calc_statistic E a Sum = Ok (Fin (qsum l)) /\
  calc_statistic E a Count = Ok (Fin (qlen l)) /\
  calc_statistic E a Mean = Ok (Fin (qsum l / qlen l)%Qc) /\
  calc_statistic E a Variance = Ok (Fin (qsum (map (fun x => (x - qmean l) * (x - qmean l))%Qc l) / qlen l)%Qc) /\
  calc_statistic E a Std = Ok (Fin (ext_sqrt E (qvar l))) /\ (0 <= qvar l)%Qc.
Proof. exact (c02_all E a). Qed.
Print Assumptions C02_statistics_have_their_value.
Example C02_example : finites [fz 3; NaN; fz 1] <> [] /\
  calc_statistic {| ext_sqrt := fun x => x; ext_rand := 0 |} [fz 3; NaN; fz 1] Variance = Ok (fz 1).
Proof. split; [discriminate|vcalc]. Qed.

(** C03 *)
Theorem C03_min_max_median_order_statistics E a : finites a <> [] ->
  (exists m, calc_statistic E a Min = Ok (Fin m) /\ In (Fin m) a /\ forall x, In (Fin x) a -> (m <= x)%Qc) /\
  (exists m, calc_statistic E a Max = Ok (Fin m) /\ In (Fin m) a /\ forall x, In (Fin x) a -> (x <= m)%Qc) /\
  (exists m, calc_statistic E a Median = Ok (Fin m) /\
    (forall lo hi, is_min (finites a) lo -> is_max (finites a) hi -> (lo <= m <= hi)%Qc) /\
    zlen (finites a) <= 2 * count_le (finites a) m /\ zlen (finites a) <= 2 * count_ge (finites a) m).
Proof. exact (c03_all E a). Qed.
Print Assumptions C03_min_max_median_order_statistics.
Example C03_example : finites [fz 5; NInf; fz 2; fz 4] <> [] /\
  calc_statistic {| ext_sqrt := fun x => x; ext_rand := 0 |} [fz 5; NInf; fz 2; fz 4] Median = Ok (fz 4).
Proof. split; [discriminate|vcalc]. Qed.

(** C04 *)
Theorem C04_calc_quantile_spec :
  (forall a q, (0 <= q <= 1)%Qc -> finites a <> [] ->
     exists r, calc_quantile a (Fin q) = Ok (Fin r) /\ is_quantile (finites a) q r) /\
  (forall a q, (0 <= q <= 1)%Qc -> finites a = [] -> calc_quantile a (Fin q) = Ok MV) /\
  (forall a q, (q < 0)%Qc \/ (1 < q)%Qc -> calc_quantile a (Fin q) = Throw InvalidArgument) /\
  (forall a, calc_quantile a NaN = Ok MV) /\
  (forall l r, l <> [] -> is_quantile l 0 r -> is_min l r) /\
  (forall l r, l <> [] -> is_quantile l 1 r -> is_max l r) /\
  (forall l q r lo hi, (0 <= q <= 1)%Qc -> is_quantile l q r -> is_min l lo -> is_max l hi -> (lo <= r <= hi)%Qc) /\
  (forall l q q' r r', (0 <= q)%Qc -> (q <= q')%Qc -> (q' <= 1)%Qc -> l <> [] ->
     is_quantile l q r -> is_quantile l q' r' -> (r <= r')%Qc) /\
  (forall l q r r', is_quantile l q r -> is_quantile l q r' -> r = r') /\
  (forall a b q, same_finites a b -> calc_quantile a q = calc_quantile b q).
Proof. exact c04_all. Qed.
Print Assumptions C04_calc_quantile_spec.
Example C04_example : calc_quantile [fz 10; NaN; fz 0; fz 4] (fq (3 # 4)) = Ok (fz 7) /\
  is_quantile [qz 10; qz 0; qz 4] (Q2Qc (3 # 4)) (qz 7).
Proof.
  split; [vcalc|]. exists [qz 0; qz 4; qz 10]. split; [|split; [|apply Qc_is_canon; vm_compute; reflexivity]].
  - apply perm_trans with [qz 0; qz 10; qz 4]; [do 2 constructor|constructor].
  - repeat constructor; vm_compute; discriminate.
Qed.

(** C05 *)
Theorem C05_quantile_affine_and_monotone :
  (forall a b v q, (0 < a)%Qc -> (0 <= q <= 1)%Qc ->
     calc_quantile (map (scale_val a b) v) (Fin q) =
     match calc_quantile v (Fin q) with Ok r => Ok (scale_val a b r) | e => e end) /\
  (forall a b q, (0 <= q <= 1)%Qc -> raised a b ->
     match calc_quantile a (Fin q), calc_quantile b (Fin q) with
     | Ok (Fin x), Ok (Fin y) => (x <= y)%Qc
     | Ok u, Ok v => u = MV /\ v = MV /\ finites a = [] /\ finites b = []
     | _, _ => False
     end).
Proof. exact (conj calc_quantile_scale calc_quantile_raised). Qed.
Print Assumptions C05_quantile_affine_and_monotone.
Example C05_example : raised [fz 1; NaN; fz 3] [fz 2; NaN; fz 3] /\
  calc_quantile [fz 1; NaN; fz 3] (fq (1 # 2)) = Ok (fz 2) /\
  calc_quantile (map (scale_val (qz 2) (qz 5)) [fz 1; NaN; fz 3]) (fq (1 # 2)) = Ok (fz 9).
Proof. split; [repeat constructor; vm_compute; discriminate|split; vcalc]. Qed.

(** C06 *)
Theorem C06_even_quantiles l num : l <> [] -> 1 <= num ->
  exists out, calc_even_quantiles (map Fin l) num = Ok (map Fin out) /\
    out <> [] /\ zlen out <= num /\ incl out l /\ qsorted out /\
    is_min l (qnth out 0) /\ (2 <= num -> is_max l (qnth out (zlen out - 1))).
Proof. exact (c06_all l num). Qed.
Print Assumptions C06_even_quantiles.
Example C06_example : calc_even_quantiles [fz 3; fz 1; fz 1; fz 1; fz 2; fz 9] 3 = Ok [fz 1; fz 2; fz 9].
Proof. vcalc. Qed.

(** C07: refuted in general (repeated levels), true when there are at least num distinct values. *)
Theorem C07_even_quantiles_distinct_refuted :
  exists l num out, 1 <= num /\ calc_even_quantiles (map Fin l) num = Ok (map Fin out) /\ ~ NoDup out.
Proof. exact c07_refuted. Qed.
Print Assumptions C07_even_quantiles_distinct_refuted.
(** missing: inputs with fewer than num distinct values *)
Theorem C07_even_quantiles_distinct_partial l num : l <> [] -> 1 <= num -> num <= distinct l ->
  exists out, calc_even_quantiles (map Fin l) num = Ok (map Fin out) /\ zlen out = num /\ NoDup out.
Proof. exact (c07_partial l num). Qed.
Print Assumptions C07_even_quantiles_distinct_partial.
Example C07_example : 3 <= distinct [qz 3; qz 1; qz 1; qz 1; qz 2; qz 9].
Proof. vm_compute. discriminate. Qed.
