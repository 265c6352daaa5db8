From Coq Require Import Qround.
From Verif Require Import Base ListLib M_Stat M_Curve S_Stat S_Curve P_Stat P_Even P_Curve.

Lemma small_sort l : zlen l <= 1 -> qsort l = l.
Proof.
  intros H. destruct l as [|a [|b l]]; [reflexivity|reflexivity|]. rewrite !zlen_cons in H. pose proof (zlen_nonneg l). lia.
Qed.
Lemma qmap_plain R F : zlen R = zlen F -> quantile_mapping_curve (map Fin R) (map Fin F) [] = Ok (map Fin (qsort R), map Fin (qsort F)).
Proof.
  intros HL. unfold quantile_mapping_curve. rewrite !zlen_map. replace (zlen R =? zlen F) with true by lia. cbn [negb forallb].
  destruct (Z.eqb_spec (zlen R) 0); [rewrite !small_sort by lia; reflexivity|]. destruct (Z.eqb_spec (zlen R) 1); [rewrite !small_sort by lia; reflexivity|].
  rewrite !std_sort_map. cbn [bind]. change (zlen (@nil val)) with 0. reflexivity.
Qed.
Definition bad_level (q : val) : Prop := ~ exists l, q = Fin l /\ (0 <= l <= 1)%Qc.
Lemma level_test q : (is_valid q && negb (vltb (fz 1) q) && negb (vltb q (fz 0))) = true <-> exists l, q = Fin l /\ (0 <= l <= 1)%Qc.
Proof.
  split.
  - destruct q; cbn [is_valid andb]; try discriminate. cbn [vltb fz]. change (qz 1) with 1%Qc. change (qz 0) with 0%Qc.
    destruct (qltb_spec 1 q); [discriminate|]. destruct (qltb_spec q 0); [discriminate|]. intros _. exists q. split; [reflexivity|]. split; qlra.
  - intros (l & -> & H1 & H2). cbn [is_valid andb vltb fz]. change (qz 1) with 1%Qc. change (qz 0) with 0%Qc. destruct (qltb_spec 1 l); [exfalso; qlra|]. destruct (qltb_spec l 0); [exfalso; qlra|]. reflexivity.
Qed.
Lemma qmap_bad ref fcst levels : zlen ref <> zlen fcst \/ (exists q, In q levels /\ ~ exists l, q = Fin l /\ (0 <= l <= 1)%Qc) -> quantile_mapping_curve ref fcst levels = Throw InvalidArgument.
Proof.
  intros H. unfold quantile_mapping_curve. destruct (Z.eqb_spec (zlen ref) (zlen fcst)) as [E|E]; [|reflexivity]. cbn [negb]. destruct H as [H|(q & IN & B)]; [contradiction|].
  destruct (forallb _ levels) eqn:FA; [|reflexivity]. exfalso. rewrite forallb_forall in FA. apply B. apply level_test. apply FA. exact IN.
Qed.
Lemma c31_all R F : zlen R = zlen F ->
  (exists R' F', quantile_mapping_curve (map Fin R) (map Fin F) [] = Ok (map Fin R', map Fin F') /\
     Permutation R' R /\ Permutation F' F /\ qsorted R' /\ qsorted F') /\
  (forall R2 F2, Permutation R2 R -> Permutation F2 F -> quantile_mapping_curve (map Fin R2) (map Fin F2) [] = quantile_mapping_curve (map Fin R) (map Fin F) []) /\
  (forall ref fcst levels, zlen ref <> zlen fcst \/ (exists q, In q levels /\ ~ exists l, q = Fin l /\ (0 <= l <= 1)%Qc) -> quantile_mapping_curve ref fcst levels = Throw InvalidArgument).
Proof.
  intros HL. split; [|split; [|exact qmap_bad]].
  - exists (qsort R), (qsort F). split; [apply qmap_plain; exact HL|]. split; [apply perm_qsort|]. split; [apply perm_qsort|]. split; apply sorted_qsort.
  - intros R2 F2 PR PF. rewrite !qmap_plain; [rewrite (qsort_perm_eq _ _ PR), (qsort_perm_eq _ _ PF); reflexivity|exact HL|].
    unfold zlen in *. rewrite (Permutation_length PR), (Permutation_length PF). exact HL.
Qed.
(** the same two pairs in another order give another curve; the levels are ignored for a single pair *)
Lemma c32_refuted :
  (exists R F R' F' q, Permutation (combine R F) (combine R' F') /\ (0 <= q <= 1)%Qc /\
    quantile_mapping_curve (map Fin R) (map Fin F) [Fin q] <> quantile_mapping_curve (map Fin R') (map Fin F') [Fin q]) /\
  (exists R F q q', (q <= q')%Qc /\ quantile_mapping_curve (map Fin R) (map Fin F) [Fin q; Fin q'] = Ok ([Fin (qz 2); Fin (qz 1)], [Fin (qz 2); Fin (qz 1)])).
Proof.
  split.
  - exists [qz 1; qz 2], [qz 1; qz 2], [qz 2; qz 1], [qz 2; qz 1], 0%Qc. split; [apply perm_swap|]. split; [split; discriminate|]. vm_compute. intros K. discriminate K.
  - exists [qz 2; qz 1], [qz 2; qz 1], 0%Qc, 1%Qc. split; [discriminate|]. vcalc.
Qed.
Lemma qmap_index l n : (0 <= l <= 1)%Qc -> 2 <= n -> to_int (vmul (Fin l) (fz (n - 1))) = Ok (Qfloor (l * qz (n - 1))%Qc) /\ 0 <= Qfloor (l * qz (n - 1))%Qc < n.
Proof.
  intros [H1 H2] Hn. assert (P : (0 <= qz (n - 1))%Qc) by (change 0%Qc with (qz 0); apply qz_le; lia).
  assert (P0 : (0 <= l * qz (n - 1))%Qc) by qnra. assert (P1 : (l * qz (n - 1) <= qz (n - 1))%Qc) by qnra.
  split; [cbn [vmul fz to_int]; rewrite ztrunc_floor by exact P0; reflexivity|].
  pose proof (qfloor_mono _ _ P0) as G1. pose proof (qfloor_mono _ _ P1) as G2.
  replace (Qfloor (qz (n - 1))) with (n - 1) in G2 by (symmetry; apply qfloor_unique; split; qlra). change (Qfloor 0%Qc) with 0 in G1. lia.
Qed.
Lemma qmap_levels R F levels : zlen R = zlen F -> 2 <= zlen R -> levels <> [] -> (forall q, In q levels -> (0 <= q <= 1)%Qc) ->
  quantile_mapping_curve (map Fin R) (map Fin F) (map Fin levels) =
  Ok (map (fun q => Fin (qnth R (Qfloor (q * qz (zlen F - 1))%Qc))) levels, map (fun q => Fin (qnth F (Qfloor (q * qz (zlen F - 1))%Qc))) levels).
Proof.
  intros HL H2 NE HV. unfold quantile_mapping_curve. rewrite !zlen_map. replace (zlen R =? zlen F) with true by lia. cbn [negb].
  replace (forallb (fun q => is_valid q && negb (vltb (fz 1) q) && negb (vltb q (fz 0))) (map Fin levels)) with true.
  2:{ symmetry. apply forallb_forall. intros q Hq. apply in_map_iff in Hq. destruct Hq as (l & <- & Hl). apply level_test. exists l. split; [reflexivity|apply HV; exact Hl]. }
  cbn [negb]. replace (zlen R =? 0) with false by lia. replace (zlen R =? 1) with false by lia. rewrite !std_sort_map. cbn [bind].
  replace (zlen levels =? 0) with false by (pose proof (zlen_pos' levels NE); lia). rewrite zlen_map. replace (zlen (qsort F)) with (zlen F) by (symmetry; apply zlen_qsort).
  rewrite P_Search.mapM_map.
  rewrite (mapM_ok _ (fun l => (Fin (qnth R (Qfloor (l * qz (zlen F - 1))%Qc)), Fin (qnth F (Qfloor (l * qz (zlen F - 1))%Qc))))).
  - cbn [bind]. rewrite !map_map. reflexivity.
  - intros l Hl. destruct (qmap_index l (zlen F) (HV l Hl) ltac:(lia)) as [EI RI]. rewrite EI. cbn [bind]. rewrite !znth_mapFin by lia. reflexivity.
Qed.
Lemma c32_partial R F levels : zlen R = zlen F -> 2 <= zlen R -> levels <> [] -> (forall q, In q levels -> (0 <= q <= 1)%Qc) -> qsorted R -> qsorted F ->
  (exists R' F', quantile_mapping_curve (map Fin R) (map Fin F) (map Fin levels) = Ok (map Fin R', map Fin F') /\
     zlen R' = zlen levels /\ zlen F' = zlen levels /\
     forall i, 0 <= i < zlen levels -> qnth R' i = qnth R (Qfloor (qnth levels i * qz (zlen R - 1))%Qc) /\ qnth F' i = qnth F (Qfloor (qnth levels i * qz (zlen F - 1))%Qc) /\
       forall j, 0 <= j < zlen levels -> (qnth levels i <= qnth levels j)%Qc -> (qnth R' i <= qnth R' j)%Qc /\ (qnth F' i <= qnth F' j)%Qc).
Proof.
  intros HL H2 NE HV SR SF.
  exists (map (fun q => qnth R (Qfloor (q * qz (zlen F - 1))%Qc)) levels), (map (fun q => qnth F (Qfloor (q * qz (zlen F - 1))%Qc)) levels).
  rewrite !zlen_map. split; [rewrite qmap_levels by assumption; rewrite !map_map; reflexivity|]. split; [reflexivity|]. split; [reflexivity|].
  assert (G : forall (g : Qc -> Qc) i, 0 <= i < zlen levels -> qnth (map g levels) i = g (qnth levels i)).
  { intros g i Hi. assert (K : znth (map g levels) i = Ok (g (qnth levels i))) by (rewrite znth_map, qnth_znth by lia; reflexivity). rewrite qnth_znth in K by (rewrite zlen_map; lia). congruence. }
  intros i Hi. rewrite !G by lia. rewrite HL. split; [reflexivity|]. split; [reflexivity|]. intros j Hj Hq. rewrite !G by lia.
  destruct (qmap_index (qnth levels i) (zlen F)) as [_ B1]; [apply HV, qnth_In; lia|lia|]. destruct (qmap_index (qnth levels j) (zlen F)) as [_ B2]; [apply HV, qnth_In; lia|lia|].
  assert (M : Qfloor (qnth levels i * qz (zlen F - 1))%Qc <= Qfloor (qnth levels j * qz (zlen F - 1))%Qc).
  { apply qfloor_mono. assert (P : (0 <= qz (zlen F - 1))%Qc) by (change 0%Qc with (qz 0); apply qz_le; lia). qnra. }
  split; apply qnth_mono; auto; lia.
Qed.
