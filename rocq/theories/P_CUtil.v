(** Proofs about the client's statistics, interpolation, locations and fields. *)
From Verif Require Import Base QcTac ListLib M_Stat S_Stat M_Interp S_Interp P_Stat P_Quant P_Even P_Interp M_COpt M_CUtil S_CUtil.
From Coq Require Import Qround Lqa.
Local Open Scope Z_scope.

Lemma cvalid_from v : cvalid v = is_valid (from_client v) /\ (cvalid v = true -> from_client v = v) /\ (cvalid v = false -> from_client v = NaN).
Proof.
  destruct v; cbn; auto; try (repeat split; congruence). unfold missing_number. destruct (qeqb_spec q (qz (-999))) as [->|n].
  - destruct (Qc_eq_dec (qz (-999)) (qz (-999))); [|congruence]. repeat split; cbn; congruence.
  - destruct (Qc_eq_dec q (qz (-999))); [congruence|]. repeat split; cbn; congruence.
Qed.
Lemma csum_api a : forall s, fold_left csum_step a s = fold_left sum_step (map from_client a) s.
Proof.
  induction a as [|v a IH]; intros s; [reflexivity|]. cbn [map fold_left]. rewrite IH. f_equal. unfold csum_step, sum_step.
  destruct (cvalid_from v) as (e & H & _). rewrite <- e. destruct (cvalid v); auto. rewrite H; auto.
Qed.
Definition client_state (s : val * val * val * Z) : val * val * val * Z := let '(a, b, K, n) := s in (a, b, to_client K, n).
Lemma cvar_api a : forall s, (let '(_, _, K, _) := s in K = NaN \/ cvalid K = true) ->
  fold_left cvar_step a (client_state s) = client_state (fold_left var_step (map from_client a) s).
Proof.
  induction a as [|v a IH]; intros s H; [reflexivity|]. cbn [map fold_left].
  assert (E : cvar_step (client_state s) v = client_state (var_step s (from_client v)) /\ (let '(_, _, K, _) := var_step s (from_client v) in K = NaN \/ cvalid K = true)).
  { destruct s as [[[t t2] K] n]. cbn [client_state]. unfold cvar_step, var_step. destruct (cvalid_from v) as (e & Hv & _). rewrite <- e.
    destruct (cvalid v) eqn:Ev; [|split; auto]. rewrite Hv by auto. destruct H as [->|HK].
    - cbn [to_client is_valid]. unfold missing_number. change (cvalid (Fin (qz (-999)))) with false. cbv iota. split; [|auto].
      unfold client_state. destruct v; try discriminate. reflexivity.
    - destruct K; try discriminate. cbn [to_client is_valid]. rewrite HK. split; [reflexivity|auto]. }
  destruct E as [E1 E2]. rewrite E1. apply IH; auto.
Qed.
Lemma filter_client a : filter cvalid a = filter is_valid (map from_client a).
Proof.
  induction a as [|v a IH]; [reflexivity|]. cbn [map filter]. destruct (cvalid_from v) as (e & H & _). rewrite <- e. destruct (cvalid v); [rewrite H, IH; auto|auto].
Qed.
Lemma cvalid_MV : cvalid CMV = false. Proof. reflexivity. Qed.
(** the client's quantile agrees with the library's *)
Lemma cquantile_api a q : (0 <= q <= 1)%Qc -> exists r, calc_quantile (map from_client a) (Fin q) = Ok r /\ cquantile a (Fin q) = Ok (to_client r).
Proof.
  intros Hq. rewrite calc_quantile_value by auto. eexists. split; [reflexivity|].
  unfold cquantile. rewrite filter_client, filter_valid, zlen_map. set (l := finites (map from_client a)).
  destruct l as [|x l'] eqn:E; [reflexivity|]. rewrite <- E in *.
  assert (Hl : 0 < zlen l) by (rewrite E, zlen_cons; pose proof (zlen_nonneg l'); lia). clear E.
  replace (0 <? zlen l) with true by lia. rewrite std_sort_map. cbn [bind].
  change (vmul (Fin q) (fz (zlen l - 1))) with (Fin (q * qz (zlen l - 1))%Qc). cbv iota.
  set (N := zlen l) in *. set (s := qsort l). set (pos := (q * qz (N - 1))%Qc). destruct Hq as [Hq0 Hq1].
  assert (HN : (0 <= qz (N - 1))%Qc). { change 0%Qc with (qz 0). apply qz_le. lia. }
  assert (Hp : (0 <= pos <= qz (N - 1))%Qc). { unfold pos. split; qnra. }
  assert (Hf0 : 0 <= Qfloor pos). { rewrite <- (qfloor_qz 0). apply qfloor_mono. rewrite qz_0. apply Hp. }
  assert (Hf1 : Qfloor pos <= N - 1). { rewrite <- (qfloor_qz (N - 1)). apply qfloor_mono. apply Hp. }
  assert (Hls : zlen s = N) by apply zlen_qsort.
  rewrite znth_map, qnth_znth by lia. cbn [bind].
  rewrite qceil_spec. destruct (qeqb_spec pos (qz (Qfloor pos))) as [Ep|Ep].
  { rewrite znth_map, qnth_znth by lia. cbn [bind]. rewrite Z.eqb_refl. cbn [to_client]. do 2 f_equal.
    rewrite Ep at 2. rewrite lerp_at_qz. reflexivity. }
  assert (Hf2 : Qfloor pos + 1 <= N - 1).
  { assert (qz (Qfloor pos) < qz (N - 1))%Qc as A.
    { pose proof (qfloor_le pos). destruct (Qclt_le_dec (qz (Qfloor pos)) (qz (N - 1))) as [L|L]; [exact L|].
      exfalso. apply Ep. apply Qcle_antisym; destruct Hp; qlra. }
    apply (proj1 (qz_lt _ _)) in A. lia. }
  rewrite znth_map, qnth_znth by lia. cbn [bind].
  replace (Qfloor pos =? Qfloor pos + 1) with false by lia.
  assert (HNp : (0 < qz (N - 1))%Qc) by (rewrite <- qz_0; apply qz_lt; lia).
  assert (HN1 : qz (N - 1) <> 0%Qc). { rewrite <- qz_0. intros H. apply qz_inj in H. lia. }
  unfold fz. rewrite !vdiv_Fin by exact HN1. cbn [vsub vadd vneg vmul].
  rewrite qz_add, qz_1.
  set (k := qz (Qfloor pos)) in *. set (M := qz (N - 1)) in *.
  assert (D : ((k + 1) / M + - (k / M) = 1 / M)%Qc) by (field; exact HN1). rewrite D.
  assert (HD : (1 / M <> 0)%Qc).
  { intros A. assert (1 = 0 * M)%Qc as B. { rewrite <- A. field. exact HN1. } rewrite Qcmult_0_l in B. discriminate. }
  rewrite vdiv_Fin by exact HD. cbn [vleb vltb vmul vadd].
  pose proof (qfloor_le pos) as F1. pose proof (qlt_floor pos) as F2. fold k in F1, F2.
  assert (F : ((q + - (k / M)) / (1 / M) = pos - k)%Qc). { unfold pos. fold M. field. split; [exact HN1|discriminate]. }
  rewrite F.
  assert (A1 : qltb (k / M)%Qc ((k + 1) / M)%Qc = true).
  { destruct (qltb_spec (k / M) ((k + 1) / M)) as [|n]; auto. exfalso.
    assert (0 < 1 / M)%Qc. { unfold Qcdiv. rewrite Qcmult_1_l. destruct (Qclt_le_dec 0 (/ M)); auto. exfalso. assert (M * / M = 1)%Qc by (apply Qcmult_inv_r; auto). qnra. }
    rewrite <- D in H. qlra. }
  assert (A2 : qleb (k / M)%Qc q = true).
  { destruct (qleb_spec (k / M) q) as [|n]; auto. exfalso. apply n. apply qdiv_le_iff; auto. }
  assert (A3 : qleb (qz 0) (pos - k)%Qc = true) by (destruct (qleb_spec (qz 0) (pos - k)) as [|n]; auto; exfalso; apply n; rewrite qz_0; qlra).
  assert (A4 : qleb (pos - k)%Qc 1%Qc = true) by (destruct (qleb_spec (pos - k) 1) as [|n]; auto; exfalso; apply n; qlra).
  rewrite !P_Stat.vleb_Fin, A1, A2, A3, A4. cbn [assert_ bind to_client]. do 2 f_equal.
  unfold lerp_at. fold pos k. change (qz N + - qz 1)%Qc with (qz (N - 1)). ring.
Qed.

Lemma finites_from a : finites (map from_client a) = present a.
Proof.
  unfold present. induction a as [|v a IH]; [reflexivity|]. destruct v; cbn; auto. destruct (Qc_eq_dec q missing_number); cbn; rewrite IH; reflexivity.
Qed.
Lemma to_client_if (l : list Qc) v : to_client (if l then MV else Fin v) = if l then CMV else Fin v.
Proof. destruct l; reflexivity. Qed.

Lemma c142 E a c s q : same_statistic c s -> exists r, calc_statistic E (map from_client a) s = Ok r /\ calculate_stat E a c q = Ok (to_client r).
Proof.
  intros H. destruct c, s; try contradiction H; clear H; cbn [calculate_stat].
  - rewrite calc_mean. eexists. split; [reflexivity|]. rewrite csum_api, to_client_if. pose proof (calc_mean E (map from_client a)) as K. unfold calc_statistic in K.
    rewrite fold_skip in K |- * by apply sum_skip. destruct (finites _) as [|x l]; [reflexivity|]. destruct (fold_left _ _ _) as [t n].
    cbn [stat_eqb] in K. destruct (0 <? n); [exact K|discriminate].
  - apply cquantile_api. split; qlra.
  - apply cquantile_api. split; discriminate.
  - apply cquantile_api. split; discriminate.
  - rewrite calc_var_std by auto. eexists. split; [reflexivity|]. change (fz 0, fz 0, CMV, 0) with (client_state (fz 0, fz 0, MV, 0)). rewrite cvar_api by auto.
    pose proof (calc_var_std E (map from_client a) Std (or_intror eq_refl)) as K. unfold calc_statistic in K.
    rewrite fold_skip in K |- * by apply var_skip. destruct (finites _) as [|x l]; [reflexivity|].
    destruct (fold_left _ _ _) as [[[t t2] k] n]. cbn [client_state stat_eqb] in K |- *. destruct (0 <? n).
    + rewrite K. unfold vsqrt. destruct (qltb_spec (qvar (x :: l)) 0) as [L|L]; [exfalso; pose proof (qvar_nonneg (x :: l)); qlra|reflexivity].
    + exfalso. unfold vsqrt in K. destruct (qltb_spec (qvar (x :: l)) 0) as [L|L]; [pose proof (qvar_nonneg (x :: l)); qlra|discriminate].
  - rewrite calc_sum. eexists. split; [reflexivity|]. rewrite csum_api, to_client_if. pose proof (calc_sum E (map from_client a)) as K. unfold calc_statistic in K.
    rewrite fold_skip in K |- * by apply sum_skip. destruct (finites _) as [|x l]; [reflexivity|]. destruct (fold_left _ _ _) as [t n].
    cbn [stat_eqb] in K. destruct (0 <? n); [exact K|discriminate].
Qed.
Lemma c142_quantile E a q : (0 <= q <= 1)%Qc -> exists r, calc_quantile (map from_client a) (Fin q) = Ok r /\ calculate_stat E a CQuantile (Fin q) = Ok (to_client r).
Proof. intros H. apply cquantile_api; auto. Qed.

(** values of the statistics *)
Lemma qsum_gt m l : l <> [] -> (forall x, In x l -> m < x)%Qc -> (qlen l * m < qsum l)%Qc.
Proof.
  intros H HA. induction l as [|x l IH]; [congruence|]. unfold qlen in *. rewrite zlen_cons, qz_add, qz_1. cbn [qsum].
  assert (m < x)%Qc by (apply HA; left; reflexivity). destruct l as [|y l].
  - change (qz (zlen (@nil Qc))) with 0%Qc. cbn [qsum]. qlra.
  - assert (qz (zlen (y :: l)) * m < qsum (y :: l))%Qc by (apply IH; [discriminate|intros; apply HA; right; auto]). cbn [qsum] in *. qlra.
Qed.
Lemma qmean_gt m l : l <> [] -> (forall x, In x l -> m < x)%Qc -> (m < qmean l)%Qc.
Proof.
  intros H HA. pose proof (qsum_gt m l H HA). pose proof (qlen_pos l H). unfold qmean. destruct (Qclt_le_dec m (qsum l / qlen l)) as [|G]; auto.
  exfalso. apply qdiv_le_iff in G; auto. qlra.
Qed.
Lemma exists_min l : l <> [] -> exists m, is_min l m.
Proof.
  intros H. destruct (calc_min E0 (map Fin l)) as (r & _ & Hr); rewrite ?finites_map_Fin in *; eauto.
Qed.
Lemma exists_max l : l <> [] -> exists m, is_max l m.
Proof.
  intros H. destruct (calc_max E0 (map Fin l)) as (r & _ & Hr); rewrite ?finites_map_Fin in *; eauto.
Qed.
Lemma present_ne a x : In x (present a) -> x <> missing_number.
Proof. intros H. apply filter_In in H as [_ H]. destruct (Qc_eq_dec x missing_number); auto; discriminate. Qed.
Lemma c143_quantile E a q m : (0 <= q <= 1)%Qc -> present a <> [] -> (forall x, In x (present a) -> m < x)%Qc ->
  exists r, calculate_stat E a CQuantile (Fin q) = Ok (Fin r) /\ (m < r)%Qc.
Proof.
  intros Hq Hn HA. destruct (c142_quantile E a q Hq) as (r & R1 & R2). rewrite <- finites_from in *.
  destruct (calc_quantile_is_quantile (map from_client a) q Hq Hn) as (r' & R1' & Q). rewrite R1 in R1'. injection R1' as ->.
  exists r'. split; [exact R2|]. destruct (exists_min _ Hn) as [lo Hlo]. destruct (exists_max _ Hn) as [hi Hhi].
  pose proof (is_quantile_between _ _ _ _ _ Hq Q Hlo Hhi). destruct Hlo as [Hi _]. pose proof (HA lo Hi). qlra.
Qed.
Lemma c143_empty E a c q : present a = [] -> calculate_stat E a c q = Ok (Fin missing_number).
Proof.
  intros H. rewrite <- finites_from in H. destruct c; cbn [calculate_stat].
  1, 7: rewrite csum_api, fold_skip by apply sum_skip; rewrite H; reflexivity.
  5: change (fz 0, fz 0, CMV, 0) with (client_state (fz 0, fz 0, MV, 0)); rewrite cvar_api, fold_skip by (auto; apply var_skip); rewrite H; reflexivity.
  all: unfold cquantile; rewrite filter_client, filter_valid, H; reflexivity.
Qed.
Lemma c143_present E a c q r : (c = CQuantile -> 0 <= q <= 1)%Qc -> sqrt_nonneg E -> present a <> [] ->
  (c = CMin \/ c = CMax \/ c = CStd \/ (c = CSum /\ forall x, In x (present a) -> 0 <= x)%Qc \/ (c <> CSum /\ forall x, In x (present a) -> missing_number < x)%Qc) ->
  calculate_stat E a c (Fin q) = Ok r -> exists v, r = Fin v /\ v <> missing_number.
Proof.
  intros Hq Hs Hn Hc Hr.
  assert (Hne : forall v : Qc, (missing_number < v)%Qc -> v <> missing_number) by (intros v Hv ->; qlra).
  assert (Q : forall q', (0 <= q' <= 1)%Qc -> calculate_stat E a CQuantile (Fin q') = Ok r -> (forall x, In x (present a) -> missing_number < x)%Qc -> exists v, r = Fin v /\ v <> missing_number).
  { intros q' Hq' R HA. destruct (c143_quantile E a q' missing_number Hq' Hn HA) as (v & R' & L). rewrite R in R'. injection R' as ->. eauto. }
  destruct c.
  - destruct (c142 E a CMean Mean (Fin q) I) as (v & R1 & R2). rewrite R2 in Hr. injection Hr as <-. rewrite calc_mean, finites_from in R1. injection R1 as <-.
    destruct (present a) as [|x l] eqn:Ep; [congruence|]. destruct Hc as [|[|[|[[]|[_ Hc]]]]]; try discriminate. cbn [to_client]. eexists. split; [reflexivity|].
    apply Hne. apply qmean_gt; auto.
  - destruct (calc_min E (map from_client a)) as (v & R1 & Hi & _); [rewrite finites_from; auto|]. destruct (c142 E a CMin Min (Fin q) I) as (v' & R1' & R2).
    rewrite R1 in R1'. injection R1' as <-. rewrite R2 in Hr. injection Hr as <-. exists v. split; [reflexivity|]. rewrite finites_from in Hi. eapply present_ne; eauto.
  - destruct Hc as [|[|[|[[]|[_ Hc]]]]]; try discriminate. apply (Q (Q2Qc (1#2))); auto. split; discriminate.
  - destruct (calc_max E (map from_client a)) as (v & R1 & Hi & _); [rewrite finites_from; auto|]. destruct (c142 E a CMax Max (Fin q) I) as (v' & R1' & R2).
    rewrite R1 in R1'. injection R1' as <-. rewrite R2 in Hr. injection Hr as <-. exists v. split; [reflexivity|]. rewrite finites_from in Hi. eapply present_ne; eauto.
  - destruct Hc as [|[|[|[[]|[_ Hc]]]]]; try discriminate. apply (Q q); auto.
  - destruct (c142 E a CStd Std (Fin q) I) as (v & R1 & R2). rewrite R2 in Hr. injection Hr as <-. rewrite calc_var_std, finites_from in R1 by auto. injection R1 as <-.
    destruct (present a) as [|x l] eqn:Ep; [congruence|]. cbn [stat_eqb vsqrt]. pose proof (qvar_nonneg (x :: l)) as V.
    destruct (qltb_spec (qvar (x :: l)) 0) as [L|L]; [exfalso; qlra|]. cbn [to_client]. eexists. split; [reflexivity|]. apply Hne.
    specialize (Hs _ V). assert (missing_number < 0)%Qc by (vm_compute; reflexivity). qlra.
  - destruct (c142 E a CSum Sum (Fin q) I) as (v & R1 & R2). rewrite R2 in Hr. injection Hr as <-. rewrite calc_sum, finites_from in R1. injection R1 as <-.
    destruct (present a) as [|x l] eqn:Ep; [congruence|]. destruct Hc as [|[|[|[[_ Hc]|[[] _]]]]]; try discriminate; auto. cbn [to_client]. eexists. split; [reflexivity|].
    apply Hne. assert (missing_number < 0)%Qc by (vm_compute; reflexivity). eapply Qclt_le_trans; [eassumption|exact (qsum_nonneg _ Hc)].
Qed.
Lemma c143_refuted : exists E a, present a <> [] /\ calculate_stat E a CMean (Fin 0%Qc) = Ok (Fin missing_number) /\
  calculate_stat E a CMedian (Fin 0%Qc) = Ok (Fin missing_number).
Proof. exists E0, [fz (-998); fz (-1000)]. split; [vm_compute; discriminate|]. split; vcalc. Qed.

(** quantile levels *)
Lemma qc_mul_pos a b : (0 < a -> 0 < b -> 0 < a * b)%Qc.
Proof. intros Ha Hb. rewrite <- (Qcmult_0_l b). apply Qcmult_lt_compat_r; auto. Qed.
Lemma neg_mul q M : (q < 0 -> 1 <= M -> q * M < 0)%Qc. Proof. intros. assert (0 < (- q) * M)%Qc by (apply qc_mul_pos; qlra). qlra. Qed.
Lemma more_mul q M : (1 < q -> 1 <= M -> M < q * M)%Qc. Proof. intros. assert (0 < (q - 1) * M)%Qc by (apply qc_mul_pos; qlra). qlra. Qed.
Lemma nonneg_mul q M : (1 < q -> 1 <= M -> 0 <= q * M)%Qc. Proof. intros. assert (0 < q * M)%Qc by (apply qc_mul_pos; qlra). qlra. Qed.
Lemma c144 E a q : (calculate_stat E a CQuantile (Fin q) = UB <-> 2 <= zlen (present a) /\ ~ (0 <= q <= 1)%Qc) /\
  ((exists r, calculate_stat E a CQuantile (Fin q) = Ok r) <-> zlen (present a) < 2 \/ (0 <= q <= 1)%Qc).
Proof.
  assert (D : (0 <= q <= 1)%Qc \/ ~ (0 <= q <= 1)%Qc).
  { destruct (Qclt_le_dec q 0); [right; intros []; qlra|]. destruct (Qclt_le_dec 1 q); [right; intros []; qlra|left; auto]. }
  destruct D as [D|D].
  - destruct (c142_quantile E a q D) as (r & _ & R). rewrite R. split; split; try discriminate; eauto. intros []; contradiction.
  - destruct (Z_lt_le_dec (zlen (present a)) 2) as [L|L].
    + assert (exists r, calculate_stat E a CQuantile (Fin q) = Ok r) as [r R]; [|rewrite R; split; split; try discriminate; eauto; intros []; lia].
      destruct (present a) as [|x [|y l]] eqn:Ep.
      * exists (Fin missing_number). apply c143_empty; auto.
      * cbn [calculate_stat]. unfold cquantile. rewrite filter_client, filter_valid, finites_from, Ep. change (zlen (map Fin [x]) - 1) with 0. change (0 <? zlen (map Fin [x])) with true. cbv iota.
        change (vmul (Fin q) (fz 0)) with (Fin (q * qz 0)%Qc). rewrite qz_0, Qcmult_0_r. exists (Fin x). reflexivity.
      * exfalso. rewrite !zlen_cons in L. pose proof (zlen_nonneg l). lia.
    + assert (calculate_stat E a CQuantile (Fin q) = UB) as ->; [|split; split; auto; [intros [? [=]]|intros [?|?]; [lia|contradiction]]].
      cbn [calculate_stat]. unfold cquantile. rewrite filter_client, filter_valid, finites_from, zlen_map. set (N := zlen (present a)) in *.
      replace (0 <? N) with true by lia. rewrite std_sort_map. cbn [bind]. change (vmul (Fin q) (fz (N - 1))) with (Fin (q * qz (N - 1))%Qc). cbv iota.
      assert (HM : (1 <= qz (N - 1))%Qc) by (rewrite <- qz_1; apply qz_le; lia). set (M := qz (N - 1)) in *.
      assert (Hls : zlen (map Fin (qsort (present a))) = N) by (rewrite zlen_map; apply zlen_qsort).
      destruct (Qclt_le_dec q 0) as [L0|L0].
      { rewrite znth_out; [reflexivity|]. rewrite Hls. pose proof (qfloor_le (q * M)). pose proof (neg_mul q M L0 HM).
        assert (qz (Qfloor (q * M)%Qc) < qz 0)%Qc as A by (rewrite qz_0; eapply Qcle_lt_trans; eassumption). apply (proj1 (qz_lt _ _)) in A. lia. }
      destruct (Qclt_le_dec 1 q) as [L1|L1]; [|exfalso; apply D; auto].
      pose proof (more_mul q M L1 HM) as G.
      assert (HC : N - 1 < Qceiling (q * M)%Qc).
      { rewrite qceil_spec. destruct (qeqb_spec (q * M) (qz (Qfloor (q * M)%Qc))) as [e|e].
        - rewrite e in G. apply (proj1 (qz_lt _ _)) in G. auto.
        - pose proof (qlt_floor (q * M)). assert (qz (N - 1) < qz (Qfloor (q * M)%Qc + 1))%Qc as A by (rewrite qz_add, qz_1; fold M; eapply Qclt_trans; eassumption). apply (proj1 (qz_lt _ _)) in A. lia. }
      destruct (Z_lt_le_dec (Qfloor (q * M)%Qc) N) as [F|F].
      * rewrite znth_map. assert (H0 : 0 <= Qfloor (q * M)%Qc). { rewrite <- (qfloor_qz 0). apply qfloor_mono. rewrite qz_0. apply nonneg_mul; auto. }
        rewrite qnth_znth by (rewrite zlen_qsort; fold N; lia). cbn [bind]. rewrite znth_out; [reflexivity|rewrite Hls; lia].
      * rewrite znth_out; [reflexivity|rewrite Hls; lia].
Qed.

(** interpolation *)
Lemma cvalid_Fin q : q <> missing_number -> cvalid (Fin q) = true.
Proof. intros H. cbn. destruct (qeqb_spec q (qz (-999))); [exfalso; apply H; assumption|reflexivity]. Qed.
Lemma clower_api x X : no_missing X -> forall i o, clower (Fin x) i (match o with Some k => k | None => -999 end) (map Fin X) = match lower_loop (Fin x) i o (map Fin X) with Some k => k | None => -999 end.
Proof.
  induction 1 as [|c X Hc HX IH]; intros i o; [reflexivity|]. cbn [map clower lower_loop is_valid]. rewrite cvalid_Fin by auto.
  destruct (vltb (Fin c) (Fin x)); [apply (IH (i + 1) (Some i))|]. destruct (veqb _ _); auto. destruct (vltb _ _); auto.
Qed.
Lemma cupper_api x X : no_missing X -> forall i o, cupper (Fin x) i (match o with Some k => k | None => -999 end) (map Fin X) = match upper_loop (Fin x) i o (map Fin X) with Some k => k | None => -999 end.
Proof.
  induction 1 as [|c X Hc HX IH]; intros i o; [reflexivity|]. cbn [map cupper upper_loop is_valid]. rewrite cvalid_Fin by auto.
  destruct (vltb (Fin x) (Fin c)); [apply (IH (i - 1) (Some i))|]. destruct (veqb _ _); auto. destruct (vltb _ _); auto.
Qed.
Lemma client_lower_api x X : no_missing X -> client_lower (Fin x) (map Fin X) = match get_lower_index (Fin x) (map Fin X) with Ok k => k | _ => -999 end.
Proof. intros H. unfold client_lower, get_lower_index. rewrite (clower_api x X H 0 None). destruct (lower_loop _ _ _ _); reflexivity. Qed.
Lemma client_upper_api x X : no_missing X -> client_upper (Fin x) (map Fin X) = match get_upper_index (Fin x) (map Fin X) with Ok k => k | _ => -999 end.
Proof.
  intros H. unfold client_upper, get_upper_index. rewrite <- map_rev.
  assert (H' : no_missing (rev X)) by (apply Forall_rev; auto).
  rewrite (cupper_api x (rev X) H' _ None). destruct (upper_loop _ _ _ _); reflexivity.
Qed.
Lemma c145_value x X Y : qsorted X -> X <> [] -> zlen X = zlen Y -> no_missing X ->
  exists a b r, bracket X x a b /\ client_interpolate (Fin x) (map Fin X) (map Fin Y) = Ok (Fin r) /\ curve_value X Y x a b r.
Proof.
  intros S Hne HL HM. destruct (indices_spec x X S) as (a & b & HB & EL & EU). exists a, b.
  pose proof (zlen_pos X Hne) as HN. pose proof HB as HB'. destruct HB as (Hab & Hbn & HJ).
  unfold client_interpolate. rewrite client_lower_api, client_upper_api by auto. rewrite EL, EU, !zlen_map.
  rewrite !znth_map, !qnth_znth by lia. cbn [bind]. change (vltb (Fin ?u) (Fin ?v)) with (qltb u v).
  destruct (qltb_spec (qnth X (zlen X - 1)) x) as [L1|L1].
  { assert (a = zlen X). { destruct (Z.eq_dec a (zlen X)) as [|G]; [assumption|exfalso].
      destruct (HJ (zlen X - 1) ltac:(lia)) as (_ & F2 & F3). destruct (Z.lt_ge_cases (zlen X - 1) b).
      - specialize (F2 ltac:(lia)). rewrite F2 in L1. qlra.
      - specialize (F3 ltac:(lia)). qlra. }
    exists (qnth Y (zlen X - 1)). split; [exact HB'|]. rewrite ?znth_map, ?qnth_znth by lia. split; [reflexivity|].
    unfold curve_value; cbv zeta. repeat split; intros; try reflexivity; exfalso; lia. }
  rewrite ?znth_map, ?qnth_znth by lia. cbn [bind]. change (vltb (Fin ?u) (Fin ?v)) with (qltb u v).
  destruct (qltb_spec x (qnth X 0)) as [L2|L2].
  { assert (b = 0). { destruct (Z.eq_dec b 0) as [|G]; [assumption|exfalso].
      destruct (HJ 0 ltac:(lia)) as (F1 & F2 & _). destruct (Z.lt_ge_cases 0 a).
      - specialize (F1 ltac:(lia)). qlra.
      - specialize (F2 ltac:(lia)). rewrite F2 in L2. qlra. }
    exists (qnth Y 0). split; [exact HB'|]. rewrite ?znth_map, ?qnth_znth by lia. split; [reflexivity|].
    unfold curve_value; cbv zeta. repeat split; intros; try reflexivity; exfalso; lia. }
  destruct (Z.ltb_spec a b) as [G|G].
  - replace (a =? -999) with false by lia. replace (0 <=? a) with true by lia. replace (b - 1 =? -999) with false by lia. replace (b - 1 <? zlen X) with true by lia.
    cbn [negb assert_ bind]. rewrite ?znth_map, ?qnth_znth by lia. cbn [bind].
    destruct (HJ a ltac:(lia)) as (_ & F2 & _). destruct (HJ (b - 1) ltac:(lia)) as (_ & F2' & _).
    rewrite F2, F2' by lia. rewrite veqb_Fin. destruct (qeqb_spec x x) as [_|]; [|congruence].
    cbn [vadd]. unfold fz. rewrite vdiv_Fin by exact two_ne0. eexists. split; [exact HB'|]. split; [reflexivity|].
    unfold curve_value; cbv zeta. repeat split; intros; try reflexivity; exfalso; lia.
  - assert (a = b) as <- by lia.
    assert (a <> 0). { intros ->. destruct (HJ 0 ltac:(lia)) as (_ & _ & F3). specialize (F3 ltac:(lia)). contradiction. }
    assert (a <> zlen X). { intros E. destruct (HJ (zlen X - 1) ltac:(lia)) as (F1 & _ & _). specialize (F1 ltac:(lia)). contradiction. }
    replace (a =? 0) with false by lia. replace (a =? zlen X) with false by lia.
    replace (a - 1 =? -999) with false by lia. replace (0 <=? a - 1) with true by lia. replace (a =? -999) with false by lia. replace (a <? zlen X) with true by lia.
    cbn [negb assert_ bind]. rewrite ?znth_map, ?qnth_znth by lia. cbn [bind]. rewrite veqb_Fin.
    destruct (HJ (a - 1) ltac:(lia)) as (F1 & _ & _). specialize (F1 ltac:(lia)).
    destruct (HJ a ltac:(lia)) as (_ & _ & F3). specialize (F3 ltac:(lia)).
    destruct (qeqb_spec (qnth X (a - 1)) (qnth X a)) as [E|E]; [rewrite E in F1; exfalso; qlra|].
    rewrite P_Stat.vleb_Fin. destruct (qleb_spec (qnth X (a - 1)) (qnth X a)) as [_|n]; [|exfalso; apply n; qlra]. cbn [assert_ bind].
    cbn [vsub vneg vadd vmul].
    assert (HD : (qnth X a - qnth X (a - 1) <> 0)%Qc). { intros K. apply E. transitivity (qnth X a - (qnth X a - qnth X (a - 1)))%Qc; [ring|rewrite K; ring]. }
    change (qnth X a + - qnth X (a - 1))%Qc with (qnth X a - qnth X (a - 1))%Qc. rewrite vdiv_Fin by exact HD. cbn [vadd].
    eexists. split; [exact HB'|]. split; [reflexivity|].
    unfold curve_value; cbv zeta; repeat split; intros; try (exfalso; lia). field. exact HD.
Qed.
Lemma increasing_nth X : increasing X -> forall i j, 0 <= i < j -> j < zlen X -> (qnth X i < qnth X j)%Qc.
Proof.
  induction 1 as [|c X HX IH HF]; intros i j Hi Hj; [change (zlen (@nil Qc)) with 0 in Hj; lia|]. rewrite zlen_cons in Hj.
  rewrite (qnth_consS c X j) by lia. destruct (Z.eq_dec i 0) as [->|Hi0].
  - rewrite qnth_cons0. rewrite Forall_forall in HF. apply HF. unfold qnth. apply nth_In. unfold zlen in *. lia.
  - rewrite qnth_consS by lia. apply IH; lia.
Qed.
Lemma increasing_sorted X : increasing X -> qsorted X.
Proof. induction 1 as [|c X HX IH HF]; constructor; auto. eapply Forall_impl; [|exact HF]. intros y Hy. cbn in Hy. qlra. Qed.
Lemma c145 x X Y : increasing X -> X <> [] -> zlen X = zlen Y -> no_missing X ->
  client_interpolate (Fin x) (map Fin X) (map Fin Y) = interpolate (Fin x) (map Fin X) (map Fin Y).
Proof.
  intros HI Hne HL HM. pose proof (increasing_sorted X HI) as S.
  destruct (c145_value x X Y S Hne HL HM) as (a & b & r & B & -> & R). destruct (interpolate_spec x X Y S Hne HL) as (a' & b' & r' & B' & -> & R').
  destruct (bracket_unique _ _ _ _ _ _ B B') as [<- <-]. do 2 f_equal.
  destruct B as (Hab & Hbn & HJ).
  assert (Ht : a < b -> b = a + 1).
  { intros L. destruct (Z.eq_dec b (a + 1)); auto. exfalso. assert (H : (qnth X a < qnth X (a + 1))%Qc) by (apply increasing_nth; auto; lia).
    destruct (HJ a ltac:(lia)) as (_ & F & _). destruct (HJ (a + 1) ltac:(lia)) as (_ & F' & _). rewrite F, F' in H by lia. qlra. }
  unfold curve_value in R; cbv zeta in R. unfold interp_rule in R'; cbv zeta in R'. destruct R as (R1 & R2 & R3 & R4). destruct R' as (Q1 & Q2 & Q3 & Q4 & Q5 & Q6 & Q7).
  assert (HM2 : forall u, ((u + u) / (1 + 1) = u)%Qc) by (intros u; field; discriminate).
  destruct (Z.eq_dec a (zlen X)); [rewrite R1, Q1; auto|]. destruct (Z.eq_dec b 0); [rewrite R2, Q2; auto|].
  destruct (Z_lt_le_dec a b) as [L|L].
  - rewrite R3 by auto. specialize (Ht L). destruct (Z.eq_dec a 0), (Z.eq_dec b (zlen X)).
    + rewrite Q3; auto.
    + rewrite Q4 by lia. replace (b - 1) with a by lia. apply HM2.
    + rewrite Q5 by lia. replace (b - 1) with a by lia. apply HM2.
    + rewrite Q6 by lia. reflexivity.
  - rewrite R4, Q7 by lia. reflexivity.
Qed.
Lemma c145_refuted : exists x X Y, qsorted X /\ zlen X = zlen Y /\ no_missing X /\
  client_interpolate (Fin x) (map Fin X) (map Fin Y) <> interpolate (Fin x) (map Fin X) (map Fin Y).
Proof.
  exists (qz 0), [qz 0; qz 0; qz 1], [qz 0; qz 1; qz 2]. split; [repeat constructor; vm_compute; discriminate|]. split; [reflexivity|].
  split; [repeat constructor; discriminate|]. vm_compute. discriminate.
Qed.
(** a knot at -999 is taken for a missing one, and the interpolation stops the program *)
Lemma c145_missing : exists x X Y, increasing X /\ zlen X = zlen Y /\ client_interpolate (Fin x) (map Fin X) (map Fin Y) = Abort /\
  interpolate (Fin x) (map Fin X) (map Fin Y) = Ok (Fin (qz 1)).
Proof.
  exists (qz (-998)), [qz (-999); qz (-997)], [qz 0; qz 2]. split; [repeat constructor; vm_compute; discriminate|]. split; [reflexivity|]. split; vcalc.
Qed.

(** locations *)
Lemma num_lt_irrefl a : vltb a a = false.
Proof. destruct a; auto. cbn. destruct (qltb_spec q q); auto. exfalso; qlra. Qed.
Lemma num_lt_trans a b c : vltb a b = true -> vltb b c = true -> vltb a c = true.
Proof.
  destruct a, b, c; cbn; auto; try discriminate. destruct (qltb_spec q q0), (qltb_spec q0 q1), (qltb_spec q q1); auto; try discriminate. exfalso; qlra.
Qed.
Lemma num_cases a b : number a -> number b -> (a = b /\ veqb a b = true /\ vltb a b = false /\ vltb b a = false) \/
  (a <> b /\ veqb a b = false /\ vltb a b = true /\ vltb b a = false) \/ (a <> b /\ veqb a b = false /\ vltb a b = false /\ vltb b a = true).
Proof.
  unfold number. intros Ha Hb. destruct a, b; try congruence; cbn; auto; try (right; left; repeat split; discriminate); try (right; right; repeat split; discriminate).
  destruct (Qc_eq_dec q q0) as [->|n].
  - left. destruct (qeqb_spec q0 q0), (qltb_spec q0 q0); try congruence; auto; exfalso; qlra.
  - right. destruct (qeqb_spec q q0); [congruence|]. destruct (qltb_spec q q0), (qltb_spec q0 q).
    + exfalso; qlra.
    + left. repeat split; auto. congruence.
    + right. repeat split; auto. congruence.
    + exfalso. apply n. apply Qcle_antisym; qlra.
Qed.
Lemma num_eq_sym a b : veqb a b = veqb b a.
Proof. destruct a, b; auto. cbn. destruct (qeqb_spec q q0), (qeqb_spec q0 q); congruence. Qed.
(** lexicographic order on (lat, lon, elev) *)
Definition loc_lt (a b : location) : Prop :=
  vltb (l_lat a) (l_lat b) = true \/ (l_lat a = l_lat b /\ (vltb (l_lon a) (l_lon b) = true \/ (l_lon a = l_lon b /\ vltb (l_elev a) (l_elev b) = true))).
Definition loc_lt2 (a b : location) : Prop := vltb (l_lat a) (l_lat b) = true \/ (l_lat a = l_lat b /\ vltb (l_lon a) (l_lon b) = true).
Lemma loc_lt_spec a b : proper a -> proper b -> (loc_ltb a b = true <-> loc_lt a b).
Proof.
  intros (A1 & A2 & A3) (B1 & B2 & B3). unfold loc_ltb, loc_lt.
  destruct (num_cases _ _ A1 B1) as [(e & E1 & E2 & E3)|[(e & E1 & E2 & E3)|(e & E1 & E2 & E3)]]; rewrite E1, E2.
  - destruct (num_cases _ _ A2 B2) as [(f & F1 & F2 & F3)|[(f & F1 & F2 & F3)|(f & F1 & F2 & F3)]]; rewrite F1, F2; intuition congruence.
  - tauto.
  - split; [discriminate|]. intros [?|[? _]]; congruence.
Qed.
Lemma loc_lt2_spec a b : proper a -> proper b -> (loc_ltb2 a b = true <-> loc_lt2 a b).
Proof.
  intros (A1 & A2 & A3) (B1 & B2 & B3). unfold loc_ltb2, loc_lt2. rewrite num_eq_sym.
  destruct (num_cases _ _ A1 B1) as [(e & E1 & E2 & E3)|[(e & E1 & E2 & E3)|(e & E1 & E2 & E3)]]; rewrite E1, E2.
  - split; [auto|]. intros [?|[_ ?]]; congruence.
  - tauto.
  - split; [discriminate|]. intros [?|[? _]]; congruence.
Qed.
Lemma loc_total a b : proper a -> proper b -> ~ loc_lt a b -> ~ loc_lt b a -> l_lat a = l_lat b /\ l_lon a = l_lon b /\ l_elev a = l_elev b.
Proof.
  intros (A1 & A2 & A3) (B1 & B2 & B3) N1 N2. unfold loc_lt in *.
  destruct (num_cases _ _ A1 B1) as [(e & _ & E2 & E3)|[(e & _ & E2 & E3)|(e & _ & E2 & E3)]]; [|exfalso; tauto|exfalso; tauto].
  destruct (num_cases _ _ A2 B2) as [(f & _ & F2 & F3)|[(f & _ & F2 & F3)|(f & _ & F2 & F3)]].
  - destruct (num_cases _ _ A3 B3) as [(g & _ & G2 & G3)|[(g & _ & G2 & G3)|(g & _ & G2 & G3)]]; auto.
    + exfalso. apply N1. right. split; auto.
    + exfalso. apply N2. right. split; auto.
  - exfalso. apply N1. right. split; auto.
  - exfalso. apply N2. right. split; auto.
Qed.
Lemma loc_total2 a b : proper a -> proper b -> ~ loc_lt2 a b -> ~ loc_lt2 b a -> same_place a b.
Proof.
  intros (A1 & A2 & A3) (B1 & B2 & B3) N1 N2. unfold loc_lt2, same_place in *.
  destruct (num_cases _ _ A1 B1) as [(e & _ & E2 & E3)|[(e & _ & E2 & E3)|(e & _ & E2 & E3)]]; [|exfalso; tauto|exfalso; tauto].
  destruct (num_cases _ _ A2 B2) as [(f & _ & F2 & F3)|[(f & _ & F2 & F3)|(f & _ & F2 & F3)]]; auto.
  - exfalso. apply N1. right. split; auto.
  - exfalso. apply N2. right. split; auto.
Qed.
Lemma not_true b P : (b = true <-> P) -> (b = false <-> ~ P).
Proof. destruct b; split; intros; try tauto; try discriminate. intuition discriminate. Qed.
Lemma c146_order : strict_weak proper loc_ltb /\
  (forall a b, proper a -> proper b -> (loc_ltb a b = false /\ loc_ltb b a = false <-> loc_eqb a b = true) /\
     (loc_eqb a b = true <-> l_lat a = l_lat b /\ l_lon a = l_lon b /\ l_elev a = l_elev b)).
Proof.
  assert (Q : forall a b, proper a -> proper b -> (loc_eqb a b = true <-> l_lat a = l_lat b /\ l_lon a = l_lon b /\ l_elev a = l_elev b)).
  { intros a b (A1 & A2 & A3) (B1 & B2 & B3). unfold loc_eqb. rewrite !andb_true_iff.
    destruct (num_cases _ _ A1 B1) as [(e & -> & _)|[(e & -> & _)|(e & -> & _)]], (num_cases _ _ A2 B2) as [(f & -> & _)|[(f & -> & _)|(f & -> & _)]],
      (num_cases _ _ A3 B3) as [(g & -> & _)|[(g & -> & _)|(g & -> & _)]]; intuition congruence. }
  assert (S : forall a b, proper a -> proper b -> loc_ltb a b = false -> loc_ltb b a = false -> l_lat a = l_lat b /\ l_lon a = l_lon b /\ l_elev a = l_elev b).
  { intros a b Ha Hb H1 H2. apply loc_total; auto; [apply (not_true _ _ (loc_lt_spec a b Ha Hb))|apply (not_true _ _ (loc_lt_spec b a Hb Ha))]; auto. }
  assert (I : forall a b, proper a -> proper b -> (l_lat a = l_lat b /\ l_lon a = l_lon b /\ l_elev a = l_elev b) -> loc_ltb a b = false).
  { intros a b Ha Hb (e1 & e2 & e3). apply (not_true _ _ (loc_lt_spec a b Ha Hb)). unfold loc_lt. rewrite e1, e2, e3, !num_lt_irrefl. intuition discriminate. }
  split.
  - split; [|split].
    + intros a Ha. apply I; auto.
    + intros a b c Ha Hb Hc H1 H2. apply loc_lt_spec in H1; auto. apply loc_lt_spec in H2; auto. apply loc_lt_spec; auto. unfold loc_lt in *.
      destruct H1 as [H1|[e1 H1]], H2 as [H2|[e2 H2]].
      * left. eapply num_lt_trans; eauto.
      * left. rewrite <- e2. auto.
      * left. rewrite e1. auto.
      * right. split; [congruence|]. destruct H1 as [H1|[f1 H1]], H2 as [H2|[f2 H2]].
        -- left. eapply num_lt_trans; eauto.
        -- left. rewrite <- f2. auto.
        -- left. rewrite f1. auto.
        -- right. split; [congruence|]. eapply num_lt_trans; eauto.
    + intros a b c Ha Hb Hc H1 H2 H3 H4. pose proof (S a b Ha Hb H1 H2) as (e1 & e2 & e3). pose proof (S b c Hb Hc H3 H4) as (f1 & f2 & f3).
      split; apply I; auto; repeat split; congruence.
  - intros a b Ha Hb. split; [|apply Q; auto]. rewrite Q by auto. split; [intros []; apply S; auto|]. intros (e1 & e2 & e3). split; apply I; auto.
Qed.
Lemma c146_place : strict_weak proper loc_ltb2 /\ (forall a b, proper a -> proper b -> (loc_ltb2 a b = false /\ loc_ltb2 b a = false <-> same_place a b)).
Proof.
  assert (S : forall a b, proper a -> proper b -> loc_ltb2 a b = false -> loc_ltb2 b a = false -> same_place a b).
  { intros a b Ha Hb H1 H2. apply loc_total2; auto; [apply (not_true _ _ (loc_lt2_spec a b Ha Hb))|apply (not_true _ _ (loc_lt2_spec b a Hb Ha))]; auto. }
  assert (I : forall a b, proper a -> proper b -> same_place a b -> loc_ltb2 a b = false).
  { intros a b Ha Hb (e1 & e2). apply (not_true _ _ (loc_lt2_spec a b Ha Hb)). unfold loc_lt2. rewrite e1, e2, !num_lt_irrefl. intuition discriminate. }
  split.
  - split; [|split].
    + intros a Ha. apply I; auto. split; auto.
    + intros a b c Ha Hb Hc H1 H2. apply loc_lt2_spec in H1; auto. apply loc_lt2_spec in H2; auto. apply loc_lt2_spec; auto. unfold loc_lt2 in *.
      destruct H1 as [H1|[e1 H1]], H2 as [H2|[e2 H2]].
      * left. eapply num_lt_trans; eauto.
      * left. rewrite <- e2. auto.
      * left. rewrite e1. auto.
      * right. split; [congruence|]. eapply num_lt_trans; eauto.
    + intros a b c Ha Hb Hc H1 H2 H3 H4. pose proof (S a b Ha Hb H1 H2) as (e1 & e2). pose proof (S b c Hb Hc H3 H4) as (f1 & f2).
      split; apply I; auto; split; congruence.
  - intros a b Ha Hb. split; [intros []; apply S; auto|]. intros (e1 & e2). split; apply I; auto; split; auto.
Qed.
(** with an elevation that is not a number, "neither is smaller" is not transitive *)
Lemma c146_refuted : exists a b c, loc_ltb a b = false /\ loc_ltb b a = false /\ loc_ltb b c = false /\ loc_ltb c b = false /\ loc_ltb a c = true.
Proof.
  exists {| l_lat := fz 60; l_lon := fz 10; l_elev := fz 0 |}, {| l_lat := fz 60; l_lon := fz 10; l_elev := NaN |}, {| l_lat := fz 60; l_lon := fz 10; l_elev := fz 5 |}.
  repeat split; vm_compute; reflexivity.
Qed.

(** fields *)
Lemma f_index_ok f y x e : field_ok f -> (f_index f y x e = Ok (e + x * f_ne f + y * f_nx f * f_ne f) <-> inside f y x e) /\
  (f_index f y x e = Abort <-> ~ inside f y x e).
Proof.
  intros H. unfold f_index, inside. destruct ((0 <=? y) && (y <? f_ny f) && (0 <=? x) && (x <? f_nx f) && (0 <=? e) && (e <? f_ne f)) eqn:B; split; split; intros; try discriminate; auto; lia.
Qed.
Lemma f_index_in f y x e : field_ok f -> inside f y x e -> f_index f y x e = Ok (e + x * f_ne f + y * f_nx f * f_ne f) /\ 0 <= e + x * f_ne f + y * f_nx f * f_ne f < zlen (f_values f).
Proof.
  intros H Hi. split; [apply f_index_ok; auto|]. destruct H as (H1 & H2 & H3 & ->), Hi as (I1 & I2 & I3).
  split; [nia|]. assert (x * f_ne f + f_ne f <= f_nx f * f_ne f) by nia. assert (y * (f_nx f * f_ne f) + f_nx f * f_ne f <= f_ny f * (f_nx f * f_ne f)) by nia. lia.
Qed.
Lemma f_index_inj f y x e y' x' e' : field_ok f -> inside f y x e -> inside f y' x' e' ->
  e + x * f_ne f + y * f_nx f * f_ne f = e' + x' * f_ne f + y' * f_nx f * f_ne f -> y = y' /\ x = x' /\ e = e'.
Proof.
  intros H (A1 & A2 & A3) (B1 & B2 & B3) E.
  assert (E1 : e + f_ne f * (x + f_nx f * y) = e' + f_ne f * (x' + f_nx f * y')) by lia.
  assert (e = e' /\ x + f_nx f * y = x' + f_nx f * y') as [-> E2].
  { split; [rewrite (Z.mod_unique (e + f_ne f * (x + f_nx f * y)) (f_ne f) (x + f_nx f * y) e), (Z.mod_unique (e' + f_ne f * (x' + f_nx f * y')) (f_ne f) (x' + f_nx f * y') e'); try lia; congruence|].
    rewrite (Z.div_unique (e + f_ne f * (x + f_nx f * y)) (f_ne f) (x + f_nx f * y) e), (Z.div_unique (e' + f_ne f * (x' + f_nx f * y')) (f_ne f) (x' + f_nx f * y') e'); try lia; congruence. }
  assert (x = x' /\ y = y') as [-> ->]; auto.
  split; [rewrite (Z.mod_unique (x + f_nx f * y) (f_nx f) y x), (Z.mod_unique (x' + f_nx f * y') (f_nx f) y' x'); try lia; congruence|].
  rewrite (Z.div_unique (x + f_nx f * y) (f_nx f) y x), (Z.div_unique (x' + f_nx f * y') (f_nx f) y' x'); try lia; congruence.
Qed.
Lemma c147_new nY nX nE v : (0 <= nY -> 0 <= nX -> 0 <= nE -> exists f, new_field nY nX nE v = Ok f /\ field_ok f /\ f_ny f = nY /\ f_nx f = nX /\ f_ne f = nE /\
    forall y x e, inside f y x e -> f_get f y x e = Ok v) /\ (nY < 0 \/ nX < 0 \/ nE < 0 -> new_field nY nX nE v = Abort).
Proof.
  unfold new_field. split.
  - intros H1 H2 H3. replace (_ && _) with true by lia. eexists. split; [reflexivity|].
    assert (HF : field_ok {| f_values := init1 (nY * nX * nE) v; f_ny := nY; f_nx := nX; f_ne := nE |}). { unfold field_ok; cbn. rewrite zlen_init1 by nia. auto. }
    split; [exact HF|]. repeat split. intros y x e Hi. unfold f_get. destruct (f_index_in _ _ _ _ HF Hi) as [-> Hr]. cbn [bind].
    cbn [f_values] in *. destruct (znth_some _ _ Hr) as [w Hw]. rewrite Hw. apply znth_In in Hw. unfold init1 in Hw. apply in_map_iff in Hw as (? & <- & _). reflexivity.
  - intros H. replace (_ && _) with false by lia. reflexivity.
Qed.
Lemma c147_set f y x e v : field_ok f -> inside f y x e -> exists g, f_set f y x e v = Ok g /\ field_ok g /\ same_size f g /\
  f_get g y x e = Ok v /\ forall y' x' e', inside f y' x' e' -> (y', x', e') <> (y, x, e) -> f_get g y' x' e' = f_get f y' x' e'.
Proof.
  intros H Hi. unfold f_set. destruct (f_index_in _ _ _ _ H Hi) as [-> Hr]. cbn [bind]. rewrite zset_Ok by auto. cbn [bind]. eexists. split; [reflexivity|].
  set (i := e + x * f_ne f + y * f_nx f * f_ne f) in *. set (g := {| f_values := _; f_ny := _; f_nx := _; f_ne := _ |}).
  assert (HG : field_ok g). { destruct H as (A & B & C & D). unfold field_ok, g; cbn. rewrite zlen_lset. auto. }
  split; [exact HG|]. split; [repeat split|]. split.
  - unfold f_get. destruct (f_index_in g y x e HG Hi) as [-> _]. cbn [bind]. unfold g; cbn [f_values f_ne f_nx]. fold i. rewrite znth_lset, Z.eqb_refl by auto. reflexivity.
  - intros y' x' e' Hi' Hn. unfold f_get. destruct (f_index_in g y' x' e' HG Hi') as [-> _]. destruct (f_index_in f y' x' e' H Hi') as [-> Hr']. cbn [bind].
    unfold g; cbn [f_values f_ne f_nx]. rewrite znth_lset by auto. destruct (Z.eqb_spec (e' + x' * f_ne f + y' * f_nx f * f_ne f) i) as [E|E]; auto.
    exfalso. apply Hn. destruct (f_index_inj f y' x' e' y x e H Hi' Hi E) as (-> & -> & ->). reflexivity.
Qed.
Lemma c147_outside f y x e v : field_ok f -> ~ inside f y x e -> f_get f y x e = Abort /\ f_set f y x e v = Abort.
Proof. intros H Hn. unfold f_get, f_set. rewrite (proj2 (proj2 (f_index_ok f y x e H)) Hn). auto. Qed.
Lemma c147_members f y x : field_ok f -> 0 <= y < f_ny f -> 0 <= x < f_nx f -> 0 < f_ne f ->
  exists l, f_ens f y x = Ok l /\ zlen l = f_ne f /\ forall e, 0 <= e < f_ne f -> znth l e = f_get f y x e.
Proof.
  intros H Hy Hx He. unfold f_ens. assert (I0 : inside f y x 0) by (repeat split; lia). assert (I1 : inside f y x (f_ne f - 1)) by (repeat split; lia).
  destruct (f_index_in _ _ _ _ H I0) as [-> R0]. destruct (f_index_in _ _ _ _ H I1) as [-> R1]. cbn [bind]. set (b := x * f_ne f + y * f_nx f * f_ne f).
  replace (0 + x * f_ne f + y * f_nx f * f_ne f) with (0 + b) in * by (unfold b; lia). replace (f_ne f - 1 + x * f_ne f + y * f_nx f * f_ne f) with (f_ne f - 1 + b) in * by (unfold b; lia).
  replace (f_ne f - 1 + b + 1) with (f_ne f + b) by lia.
  destruct (mapM_total (znth (f_values f)) (fun _ _ => True) (zrange (0 + b) (f_ne f + b))) as (l & E & HL & HN).
  { intros i Hi. apply in_zrange in Hi. destruct (znth_some (f_values f) i) as [w ->]; [lia|eauto]. }
  exists l. split; [exact E|]. rewrite zlen_zrange in HL. split; [lia|].
  intros e Hie. assert (Hin : inside f y x e) by (repeat split; lia). unfold f_get. destruct (f_index_in _ _ _ _ H Hin) as [-> R]. cbn [bind].
  destruct (HN e (0 + b + e)) as (w & W1 & W2 & _); [apply znth_zrange; lia|]. rewrite W1, <- W2. f_equal. unfold b. lia.
Qed.
Lemma vec_eqb_spec a : forall b, Forall number a -> (vec_eqb a b = true <-> a = b).
Proof.
  induction a as [|v a IH]; intros [|w b] H; cbn; split; intros E; try discriminate; auto; inversion H; subst.
  - apply andb_prop in E as [E1 E2]. apply IH in E2; auto. subst. f_equal. destruct v, w; cbn in E1; try discriminate; auto. destruct (qeqb_spec q q0); [subst; auto|discriminate].
  - injection E as <- <-. apply andb_true_intro. split; [|apply IH; auto]. destruct v as [| | |q]; [exfalso; unfold number in *; congruence|reflexivity|reflexivity|]. cbn. destruct (qeqb_spec q q); congruence.
Qed.
Lemma c148 f g : field_ok f -> field_ok g -> same_size f g -> Forall number (f_values f) ->
  (f_eqb f g = true <-> forall y x e, f_get f y x e = f_get g y x e).
Proof.
  intros Hf Hg (S1 & S2 & S3) HN. unfold f_eqb. rewrite vec_eqb_spec by auto.
  assert (HI : forall y x e, f_index g y x e = f_index f y x e) by (intros; unfold f_index; rewrite S1, S2, S3; reflexivity).
  split.
  - intros E y x e. unfold f_get. rewrite HI, E. reflexivity.
  - intros E. destruct Hf as (F1 & F2 & F3 & F4), Hg as (G1 & G2 & G3 & G4). assert (L : zlen (f_values f) = zlen (f_values g)) by congruence.
    apply znth_ext; auto. intros i Hi. rewrite F4 in Hi.
    assert (0 < f_ne f) by nia. assert (0 < f_nx f) by nia.
    pose proof (Z.mod_pos_bound i (f_ne f) ltac:(lia)). pose proof (Z.div_mod i (f_ne f) ltac:(lia)) as D1. set (e := i mod f_ne f) in *. set (j := i / f_ne f) in *.
    pose proof (Z.mod_pos_bound j (f_nx f) ltac:(lia)). pose proof (Z.div_mod j (f_nx f) ltac:(lia)) as D2. set (x := j mod f_nx f) in *. set (y := j / f_nx f) in *.
    assert (0 <= j) by (apply Z.div_pos; lia). assert (0 <= y) by (apply Z.div_pos; lia).
    assert (y < f_ny f) by (apply Z.div_lt_upper_bound; [lia|]; apply Z.div_lt_upper_bound; [lia|]; lia). specialize (E y x e). unfold f_get in E. rewrite HI in E. unfold f_index in E.
    replace (_ && _) with true in E by lia. cbn [bind] in E. replace (e + x * f_ne f + y * f_nx f * f_ne f) with i in E by (rewrite D1, D2; ring). exact E.
Qed.
Lemma c148_refuted : exists f g, field_ok f /\ field_ok g /\ f_eqb f g = true /\ f_get f 0 1 0 = Ok (fz 2) /\ f_get g 0 1 0 = Abort.
Proof.
  exists {| f_values := [fz 1; fz 2]; f_ny := 1; f_nx := 2; f_ne := 1 |}, {| f_values := [fz 1; fz 2]; f_ny := 2; f_nx := 1; f_ne := 1 |}.
  repeat split; try (cbn; lia); vm_compute; reflexivity.
Qed.
