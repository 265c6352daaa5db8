From Verif Require Import Base ListLib M_Stat M_Neigh S_Stat S_Neigh P_Stat P_Quant P_Even P_Slice P_Window P_Neigh P_NeighAll.

(** ** C18: bounds, missing, halfwidth 0, large halfwidth *)
Lemma mean_between l lo hi : l <> [] -> is_min l lo -> is_max l hi -> (lo <= qmean l <= hi)%Qc.
Proof.
  intros NE [_ Hlo] [_ Hhi]. pose proof (qlen_pos l NE) as P. unfold qmean.
  assert (A : forall l, (forall x, In x l -> lo <= x)%Qc -> (lo * qlen l <= qsum l)%Qc).
  { clear. induction l as [|x l IH]; intros H; [unfold qlen; change (qz (zlen (@nil Qc))) with 0%Qc; cbn; qlra|]. unfold qlen in *. rewrite zlen_cons, qz_add, qz_1. cbn [qsum].
    pose proof (H x (or_introl eq_refl)). specialize (IH (fun y Hy => H y (or_intror Hy))). qlra. }
  assert (B : forall l, (forall x, In x l -> x <= hi)%Qc -> (qsum l <= hi * qlen l)%Qc).
  { clear. induction l as [|x l IH]; intros H; [unfold qlen; change (qz (zlen (@nil Qc))) with 0%Qc; cbn; qlra|]. unfold qlen in *. rewrite zlen_cons, qz_add, qz_1. cbn [qsum].
    pose proof (H x (or_introl eq_refl)). specialize (IH (fun y Hy => H y (or_intror Hy))). qlra. }
  split; [apply qle_div_iff; auto|apply qdiv_le_iff; auto].
Qed.
Lemma min_exists l : l <> [] -> exists m, is_min l m.
Proof.
  intros H. exists (qnth (qsort l) 0). eapply is_min_perm; [apply perm_qsort|]. apply sorted_min; [apply sorted_qsort|].
  intros K. apply H. apply Permutation_nil. rewrite <- K. apply perm_qsort.
Qed.
Lemma max_exists l : l <> [] -> exists m, is_max l m.
Proof.
  intros H. exists (qnth (qsort l) (zlen (qsort l) - 1)). eapply is_max_perm; [apply perm_qsort|]. apply sorted_max; [apply sorted_qsort|].
  intros K. apply H. apply Permutation_nil. rewrite <- K. apply perm_qsort.
Qed.
Lemma within_intro l v : (l = [] -> v = MV) -> (l <> [] -> exists r, v = Fin r /\ forall lo hi, is_min l lo -> is_max l hi -> (lo <= r <= hi)%Qc) -> within l v.
Proof.
  intros H0 H1. split.
  - split; [|exact H0]. intros ->. destruct l; [reflexivity|]. destruct H1 as (r & R & _); discriminate.
  - intros NE. destruct (H1 NE) as (r & -> & B). destruct (min_exists l NE) as (lo & Hlo). destruct (max_exists l NE) as (hi & Hhi).
    exists r, lo, hi. split; [reflexivity|]. split; [exact Hlo|]. split; [exact Hhi|]. apply B; assumption.
Qed.
Lemma is_min_le_max l lo hi : is_min l lo -> is_max l hi -> (lo <= hi)%Qc.
Proof. intros [A B] [C D]. apply B. exact C. Qed.
Lemma stat_of_within E st l v : st = Mean \/ st = Min \/ st = Max \/ st = Median -> stat_of E st l v -> within l v.
Proof.
  intros Hst H. apply within_intro.
  - intros ->. cbn in H. destruct Hst as [->|[->|[->| ->]]]; exact H.
  - intros NE. destruct l as [|x l]; [congruence|]. set (m := x :: l) in *. destruct Hst as [->|[->|[->| ->]]]; cbn in H.
    + exists (qmean m). split; [exact H|]. intros. apply mean_between; assumption.
    + destruct H as (r & -> & M). exists r. split; [reflexivity|]. intros lo hi Hlo Hhi. rewrite (is_min_unique _ _ _ M Hlo).
      split; [apply Qcle_refl|eapply is_min_le_max; eauto].
    + destruct H as (r & -> & M). exists r. split; [reflexivity|]. intros lo hi Hlo Hhi. rewrite (is_max_unique _ _ _ M Hhi).
      split; [eapply is_min_le_max; eauto|apply Qcle_refl].
    + destruct H as (r & -> & M). exists r. split; [reflexivity|]. intros lo hi Hlo Hhi. eapply is_quantile_between; eauto. exact half_unit.
Qed.
Lemma quantile_of_within q l v : (0 <= q <= 1)%Qc -> quantile_of q l v -> within l v.
Proof.
  intros Hq H. apply within_intro.
  - intros ->. exact H.
  - intros NE. destruct l as [|x l]; [congruence|]. destruct H as (r & -> & M). exists r. split; [reflexivity|].
    intros lo hi Hlo Hhi. eapply is_quantile_between; eauto.
Qed.
Lemma slice_one {A} (l : list A) i v : znth l i = Ok v -> slice l (i - 0) (i + 0) = [v].
Proof.
  intros H. pose proof (znth_range _ _ _ H). pose proof (slice_znth l i (i + 1) ltac:(lia) ltac:(lia)) as S.
  rewrite zrange_cons, zrange_nil in S by lia. cbn in S. rewrite H in S. cbn in S. injection S as S.
  rewrite S. f_equal; lia.
Qed.
Lemma around_0 {A} (f : list (list A)) y x v : get2 f y x = Ok v -> around f 0 y x = [v].
Proof.
  unfold get2, around. intros H. apply bind_Ok in H as (row & Er & Ev). rewrite (slice_one f y row Er). cbn. rewrite (slice_one row x v Ev). reflexivity.
Qed.
Lemma stat_of_single E st v r : st = Mean \/ st = Min \/ st = Max \/ st = Median \/ st = Sum -> stat_of E st (finites [v]) r -> r = norm v.
Proof.
  intros Hst H. destruct v as [| | |q]; cbn in H.
  1-3: destruct Hst as [->|[->|[->|[->| ->]]]]; exact H.
  cbn. unfold stat_of in H. destruct Hst as [->|[->|[->|[->| ->]]]].
  - rewrite H. f_equal. unfold qmean. cbn [qsum]. change (qlen [q]) with 1%Qc. field. discriminate.
  - destruct H as (m & -> & [[->|[]] _]). reflexivity.
  - destruct H as (m & -> & [[->|[]] _]). reflexivity.
  - destruct H as (m & -> & M). f_equal. assert (is_min [q] q /\ is_max [q] q) as [A B].
    { split; (split; [left; reflexivity|]; intros y [->|[]]; apply Qcle_refl). }
    destruct (is_quantile_between _ _ _ _ _ half_unit M A B). apply Qcle_antisym; assumption.
  - rewrite H. f_equal. cbn. ring.
Qed.
Lemma slice_whole {A} (l : list A) lo hi : lo <= 0 -> zlen l - 1 <= hi -> slice l lo hi = l.
Proof. intros H1 H2. rewrite slice_is_from. apply slice_from_all; lia. Qed.
Lemma around_large {A} nY nX (f : list (list A)) h y x : rect nY nX f -> nY - 1 <= h -> nX - 1 <= h -> 0 <= y < nY -> 0 <= x < nX ->
  around f h y x = concat f.
Proof.
  intros [A1 A2] H1 H2 Hy Hx. unfold around. rewrite slice_whole by lia. f_equal. rewrite <- (map_id f) at 2. apply map_ext_in.
  intros r Hr. pose proof (A2 r Hr). apply slice_whole; lia.
Qed.
Lemma stat_of_unique E st l v v' : stat_listed st -> stat_of E st l v -> stat_of E st l v' -> v = v'.
Proof.
  intros Hst. unfold stat_of. destruct l; [congruence|]. unfold stat_listed in Hst. decompose [or] Hst; subst; try congruence.
  - intros (m & -> & M) (m' & -> & M'). f_equal. eapply is_min_unique; eauto.
  - intros (m & -> & M) (m' & -> & M'). f_equal. eapply is_max_unique; eauto.
  - intros (m & -> & M) (m' & -> & M'). f_equal. eapply is_quantile_unique; eauto.
Qed.
Lemma quantile_of_unique q l v v' : quantile_of q l v -> quantile_of q l v' -> v = v'.
Proof.
  unfold quantile_of. destruct l; [congruence|]. intros (m & -> & M) (m' & -> & M'). f_equal. eapply is_quantile_unique; eauto.
Qed.
Lemma quantile_of_calc a q : (0 <= q <= 1)%Qc -> exists v, calc_quantile a (Fin q) = Ok v /\ quantile_of q (finites a) v.
Proof.
  intros Hq. destruct (finites a) as [|x l] eqn:F.
  - exists MV. rewrite calc_quantile_value by exact Hq. rewrite F. split; reflexivity.
  - destruct (calc_quantile_is_quantile a q Hq) as (r & -> & R); [rewrite F; discriminate|]. eexists. split; [reflexivity|]. cbn. rewrite F in R. eauto.
Qed.
Lemma quantile_all E input nY nX h q : rect nY nX input -> 0 < nY -> 0 < nX -> 0 <= h -> (0 <= q <= 1)%Qc ->
  exists out, neighbourhood_quantile E input (Fin q) h = Ok out /\
    filtered nY nX (fun y x => quantile_of q (finites (around input h y x))) out.
Proof.
  intros HR HY HX Hh Hq. unfold neighbourhood_quantile. rewrite (brute_tab E input nY nX h HR HY HX Hh). cbn [stat_eqb].
  destruct (tab2_total nY nX (fun y x => calc_quantile (around input h y x) (Fin q))
     (fun y x => quantile_of q (finites (around input h y x)))) as (out & EO & RO & CO); [lia|lia| |].
  - intros y x _ _. apply quantile_of_calc. exact Hq.
  - exists out. split; [apply omp_ok; exact EO|]. split; [exact RO|]. intros y x Hy Hx. destruct (CO y x Hy Hx) as (v & A & _ & B). eauto.
Qed.
Lemma c18_all E input nY nX h : rect nY nX input -> 0 < nY -> 0 < nX -> 0 <= h ->
  (forall st, stat_listed st -> exists out, neighbourhood E input h st = Ok out /\ rect nY nX out) /\
  (forall st, st = Mean \/ st = Min \/ st = Max \/ st = Median -> exists out, neighbourhood E input h st = Ok out /\
     filtered nY nX (fun y x => within (finites (around input h y x))) out) /\
  (forall q, (0 <= q <= 1)%Qc -> exists out, neighbourhood_quantile E input (Fin q) h = Ok out /\
     filtered nY nX (fun y x => within (finites (around input h y x))) out) /\
  (forall st, st = Mean \/ st = Min \/ st = Max \/ st = Median \/ st = Sum -> neighbourhood E input 0 st = Ok (map (map norm) input)) /\
  (forall q, (0 <= q <= 1)%Qc -> neighbourhood_quantile E input (Fin q) 0 = Ok (map (map norm) input)) /\
  (nY - 1 <= h -> nX - 1 <= h -> forall st, stat_listed st -> exists out v, neighbourhood E input h st = Ok out /\
     stat_of E st (finites (concat input)) v /\ filtered nY nX (fun _ _ r => r = v) out) /\
  (nY - 1 <= h -> nX - 1 <= h -> forall q, (0 <= q <= 1)%Qc -> exists out v, neighbourhood_quantile E input (Fin q) h = Ok out /\
     quantile_of q (finites (concat input)) v /\ filtered nY nX (fun _ _ r => r = v) out).
Proof.
  intros HR HY HX Hh. repeat split.
  - intros st Hst. destruct (neigh_all E input nY nX h st HR HY HX Hh Hst) as (out & EO & _ & R & _). eauto.
  - intros st Hst. destruct (neigh_all E input nY nX h st HR HY HX Hh) as (out & EO & _ & R & F); [unfold stat_listed; tauto|].
    exists out. split; [exact EO|]. split; [exact R|]. intros y x Hy Hx. destruct (F y x Hy Hx) as (v & G & S). exists v. split; [exact G|].
    eapply stat_of_within; eauto.
  - intros q Hq. destruct (quantile_all E input nY nX h q HR HY HX Hh Hq) as (out & EO & R & F). exists out. split; [exact EO|].
    split; [exact R|]. intros y x Hy Hx. destruct (F y x Hy Hx) as (v & G & S). exists v. split; [exact G|]. eapply quantile_of_within; eauto.
  - intros st Hst. destruct (neigh_all E input nY nX 0 st HR HY HX ltac:(lia)) as (out & EO & _ & R & F); [unfold stat_listed; tauto|].
    rewrite EO. f_equal. apply (rect_ext nY nX); [exact R|apply rect_map; exact HR|]. intros y x Hy Hx.
    destruct (F y x Hy Hx) as (v & G & S). destruct (rect_get2 nY nX input y x HR Hy Hx) as (w & Ew).
    rewrite (around_0 _ _ _ _ Ew) in S. rewrite G, (get2_map _ norm _ _ _ Ew). f_equal. eapply stat_of_single; eauto.
  - intros q Hq. destruct (quantile_all E input nY nX 0 q HR HY HX ltac:(lia) Hq) as (out & EO & R & F).
    rewrite EO. f_equal. apply (rect_ext nY nX); [exact R|apply rect_map; exact HR|]. intros y x Hy Hx.
    destruct (F y x Hy Hx) as (v & G & S). destruct (rect_get2 nY nX input y x HR Hy Hx) as (w & Ew).
    rewrite (around_0 _ _ _ _ Ew) in S. rewrite G, (get2_map _ norm _ _ _ Ew). f_equal.
    apply quantile_of_within in S; [|exact Hq]. destruct w as [| | |c]; cbn in S; unfold within in S; try (apply S; reflexivity).
    destruct S as [_ (r & lo & hi & -> & [[->|[]] _] & [[->|[]] _] & L & H)]; [discriminate|]. cbn. f_equal. apply Qcle_antisym; assumption.
  - intros B1 B2 st Hst. destruct (neigh_all E input nY nX h st HR HY HX Hh Hst) as (out & EO & _ & R & F).
    destruct (F 0 0 ltac:(lia) ltac:(lia)) as (v & _ & S). rewrite (around_large nY nX) in S by (assumption || lia). exists out, v.
    split; [exact EO|]. split; [exact S|]. split; [exact R|]. intros y x Hy Hx. destruct (F y x Hy Hx) as (w & G & S').
    rewrite (around_large nY nX) in S' by (assumption || lia). exists w. split; [exact G|]. eapply stat_of_unique; eauto.
  - intros B1 B2 q Hq. destruct (quantile_all E input nY nX h q HR HY HX Hh Hq) as (out & EO & R & F).
    destruct (F 0 0 ltac:(lia) ltac:(lia)) as (v & _ & S). rewrite (around_large nY nX) in S by (assumption || lia). exists out, v.
    split; [exact EO|]. split; [exact S|]. split; [exact R|]. intros y x Hy Hx. destruct (F y x Hy Hx) as (w & G & S').
    rewrite (around_large nY nX) in S' by (assumption || lia). exists w. split; [exact G|]. eapply quantile_of_unique; eauto.
Qed.

(** ** C19: ensembles *)
Definition ens_stat (E : ext) (st : statistic) (m : vec) : val := match calc_statistic E m st with Ok v => v | _ => NaN end.
Lemma ens_stat_ok E st m : stat_listed st -> calc_statistic E m st = Ok (ens_stat E st m).
Proof. intros H. unfold ens_stat. destruct (calc_statistic_ok E m st H) as (v & -> & _). reflexivity. Qed.
Lemma sum_concat E ls : calc_statistic E (map (ens_stat E Sum) ls) Sum = calc_statistic E (concat ls) Sum.
Proof.
  rewrite !calc_sum.
  assert (G : qsum (finites (map (ens_stat E Sum) ls)) = qsum (finites (concat ls)) /\ (finites (map (ens_stat E Sum) ls) = [] <-> finites (concat ls) = [])).
  { induction ls as [|l ls [IH1 IH2]]; [cbn; split; [reflexivity|tauto]|]. cbn [map concat]. rewrite finites_app, qsum_app.
    unfold ens_stat at 1 3. rewrite calc_sum. destruct (finites l) as [|x t] eqn:F.
    - cbn [finites MV app qsum]. rewrite <- IH1. split; [ring|exact IH2].
    - cbn [finites]. cbn [qsum app]. rewrite IH1. split; [ring|]. split; discriminate. }
  destruct G as [G1 [G2 G3]]. destruct (finites (map (ens_stat E Sum) ls)) as [|x t], (finites (concat ls)) as [|y u]; try reflexivity.
  - specialize (G2 eq_refl). discriminate.
  - specialize (G3 eq_refl). discriminate.
  - rewrite G1. reflexivity.
Qed.
Lemma mean_concat E ls k : 0 < k -> (forall l, In l ls -> zlen (finites l) = k) ->
  calc_statistic E (map (ens_stat E Mean) ls) Mean = calc_statistic E (concat ls) Mean.
Proof.
  intros Hk H. rewrite !calc_mean.
  assert (KP : (0 < qz k)%Qc) by (change 0%Qc with (qz 0); apply qz_lt; exact Hk).
  assert (G : (qsum (finites (map (ens_stat E Mean) ls)) * qz k = qsum (finites (concat ls)))%Qc /\
              zlen (finites (map (ens_stat E Mean) ls)) = zlen ls /\ zlen (finites (concat ls)) = zlen ls * k).
  { induction ls as [|l ls IH].
    - split; [cbn; ring|]. split; reflexivity.
    - destruct IH as (IH1 & IH2 & IH3); [intros; apply H; right; assumption|]. cbn [map concat].
      rewrite finites_app, qsum_app, zlen_app, IH3. pose proof (H l (or_introl eq_refl)) as L.
      unfold ens_stat at 1 3. rewrite calc_mean. destruct (finites l) as [|x t] eqn:F; [change (zlen (@nil Qc)) with 0 in L; lia|].
      cbn [finites]. rewrite zlen_cons, IH2, zlen_cons, L. split; [|split; [reflexivity|lia]].
      change (qsum (qmean (x :: t) :: finites (map (ens_stat E Mean) ls))) with (qmean (x :: t) + qsum (finites (map (ens_stat E Mean) ls)))%Qc.
      rewrite <- IH1. unfold qmean, qlen. rewrite L. field. intros Z. rewrite Z in KP. exact (Qclt_not_eq _ _ KP eq_refl). }
  destruct G as (G1 & G2 & G3).
  destruct (finites (map (ens_stat E Mean) ls)) as [|x t] eqn:F1, (finites (concat ls)) as [|y u] eqn:F2; try reflexivity.
  - change (zlen (@nil Qc)) with 0 in G2. rewrite <- G2 in G3. rewrite zlen_cons in G3. pose proof (zlen_nonneg u). lia.
  - change (zlen (@nil Qc)) with 0 in G3. rewrite zlen_cons in G2. pose proof (zlen_nonneg t). nia.
  - do 2 f_equal. unfold qmean. rewrite <- G1. unfold qlen. rewrite G3, G2, qz_mul.
    assert (0 < qz (zlen ls))%Qc. { rewrite <- G2. apply qlen_pos. discriminate. }
    field. split; intros Z; [rewrite Z in KP; exact (Qclt_not_eq _ _ KP eq_refl)|rewrite Z in H0; exact (Qclt_not_eq _ _ H0 eq_refl)].
Qed.
Section Ens.
Variables (E : ext) (input : vec3) (nY nX nE h : Z).
Hypotheses (HR : rect3 nY nX nE input) (HY : 0 < nY) (HX : 0 < nX) (Hh : 0 <= h).
Lemma first_cell : exists r0 c0, znth input 0 = Ok r0 /\ zlen r0 = nX /\ znth r0 0 = Ok c0 /\ zlen c0 = nE.
Proof.
  destruct HR as [[A B] C]. destruct (znth_some input 0 ltac:(lia)) as (r & Er). pose proof (B r (znth_In _ _ _ Er)) as L.
  destruct (znth_some r 0 ltac:(lia)) as (c & Ec). exists r, c. split; [exact Er|]. split; [exact L|]. split; [exact Ec|].
  apply (C r c); eapply znth_In; eauto.
Qed.
Lemma neigh3_flat st : stat_listed st -> neighbourhood3 E input h st = neighbourhood E (map (map (ens_stat E st)) input) h st.
Proof.
  intros Hst. unfold neighbourhood3. destruct first_cell as (r0 & c0 & -> & L & E0 & _). cbn [bind]. rewrite E0. cbn [bind].
  destruct HR as [HR2 _]. pose proof HR2 as [HYl _]. rewrite HYl, L. rewrite for2_init_tab by lia.
  rewrite (tab2_ext _ _ _ (fun y x => m <- get2 input y x ;; Ok (ens_stat E st m))).
  - rewrite tab2_cells by exact HR2. reflexivity.
  - intros y x _ _. destruct (get2 input y x); cbn; try reflexivity. apply ens_stat_ok. exact Hst.
Qed.
Lemma neigh3_ok st : stat_listed st ->
  (forall y x, 0 <= y < nY -> 0 <= x < nX ->
     calc_statistic E (map (ens_stat E st) (around input h y x)) st = calc_statistic E (concat (around input h y x)) st) ->
  exists out, neighbourhood3 E input h st = Ok out /\
    tab2 nY nX (fun y x => calc_statistic E (around3 input h y x) st) = Ok out.
Proof.
  intros Hst HC. rewrite neigh3_flat by exact Hst. pose proof HR as [HR2 _].
  destruct (neigh_ok E (map (map (ens_stat E st)) input) nY nX h st (rect_map _ _ _ _ HR2) HY HX Hh Hst) as (out & EO & T).
  exists out. split; [exact EO|]. rewrite <- T. apply tab2_ext. intros y x Hy Hx. rewrite around_map. unfold around3. symmetry. apply HC; assumption.
Qed.
Lemma hood3_around y x : 0 < nE -> 0 <= y < nY -> 0 <= x < nX -> hood3 input nY nX nE h y x = Ok (around3 input h y x).
Proof.
  intros HE Hy Hx. destruct HR as [[HYl HRr] HRe]. unfold hood3.
  set (c0 := Z.max 0 (x - h)). set (c1 := Z.min (nX - 1) (x + h)).
  set (r0 := Z.max 0 (y - h)). set (r1 := Z.min (nY - 1) (y + h)).
  rewrite (mapM_ext _ (fun ii => row <- znth input ii ;; Ok (concat (slice row c0 c1)))).
  2:{ intros ii Hii. apply in_zrange in Hii. destruct (znth_some input ii ltac:(lia)) as (row & Er). rewrite Er. cbn [bind].
      pose proof (HRr row (znth_In _ _ _ Er)) as LR.
      rewrite (mapM_ext _ (fun jj => cell <- znth row jj ;; Ok cell)).
      - rewrite mapM_bind_map, slice_znth by lia. cbn [bind]. rewrite map_id. do 2 f_equal. f_equal. lia.
      - intros jj Hjj. apply in_zrange in Hjj. destruct (znth_some row jj ltac:(lia)) as (cell & Ec). rewrite Ec. cbn [bind].
        rewrite (mapM_ext _ (fun e => v <- znth cell e ;; Ok v)).
        + rewrite <- (HRe row cell (znth_In _ _ _ Er) (znth_In _ _ _ Ec)), mapM_zrange_znth.
          rewrite (mapM_ok _ (fun v => v)) by reflexivity. rewrite map_id. reflexivity.
        + intros e He. unfold get3, get2. rewrite Er. cbn [bind]. rewrite Ec. cbn [bind]. destruct (znth cell e); reflexivity. }
  rewrite mapM_bind_map, slice_znth by lia. cbn [bind]. f_equal. unfold around3, around.
  rewrite (slice_clip input (y - h) (y + h)). fold r0. replace (Z.min (zlen input - 1) (y + h)) with r1 by (unfold r1; lia).
  replace (r1 + 1 - 1) with r1 by lia.
  assert (IN : forall row, In row (slice input r0 r1) -> zlen row = nX).
  { intros row Hr. apply in_slice in Hr as (i & _ & Er). apply HRr. eapply znth_In; eauto. }
  induction (slice input r0 r1) as [|row l IH]; [reflexivity|]. cbn [map concat]. rewrite concat_app.
  rewrite IH by (intros; apply IN; right; assumption). f_equal. f_equal.
  rewrite (slice_clip row (x - h) (x + h)), (IN row (or_introl eq_refl)). reflexivity.
Qed.
Lemma brute3_tab st q : 0 < nE -> brute_force3 E input h st q = omp (tab2 nY nX (fun y x =>
   if stat_eqb st Quantile then calc_quantile (around3 input h y x) q else calc_statistic E (around3 input h y x) st)).
Proof.
  intros HE. unfold brute_force3. replace (h <? 0) with false by lia. destruct first_cell as (r0 & c0 & -> & L & E0 & LE). destruct HR as [[HYl _] _].
  replace (zlen input =? 0) with false by lia. cbn [bind]. replace (zlen r0 =? 0) with false by lia. rewrite E0. cbn [bind].
  replace (zlen c0 =? 0) with false by lia. rewrite HYl, L, LE.
  rewrite for2_init_tab by lia. f_equal. apply tab2_ext. intros y x Hy Hx. rewrite hood3_around by assumption. reflexivity.
Qed.
Lemma brute3_ok st : stat_listed st -> 0 < nE -> exists out, neighbourhood_brute_force3 E input h st = Ok out /\
  tab2 nY nX (fun y x => calc_statistic E (around3 input h y x) st) = Ok out /\
  filtered nY nX (fun y x => stat_of E st (finites (around3 input h y x))) out.
Proof.
  intros Hst HE. destruct (tab2_total nY nX (fun y x => calc_statistic E (around3 input h y x) st)
     (fun y x => stat_of E st (finites (around3 input h y x)))) as (out & EO & RO & CO); [lia|lia| |].
  - intros y x _ _. apply stat_of_calc. exact Hst.
  - exists out. split.
    + unfold neighbourhood_brute_force3. rewrite brute3_tab by exact HE. apply omp_ok. rewrite <- EO. apply tab2_ext. intros.
      unfold stat_listed in Hst. decompose [or] Hst; subst; reflexivity.
    + split; [exact EO|]. split; [exact RO|]. intros y x Hy Hx. destruct (CO y x Hy Hx) as (v & A & _ & B). eauto.
Qed.
End Ens.
Lemma c19_partial E input nY nX nE h st : rect3 nY nX nE input -> 0 < nY -> 0 < nX -> 0 < nE -> 0 <= h ->
  (st = Min \/ st = Max \/ st = Sum \/
   (st = Mean /\ exists k, 0 < k /\ forall y x m, get2 input y x = Ok m -> zlen (finites m) = k)) ->
  exists out, neighbourhood3 E input h st = Ok out /\ neighbourhood_brute_force3 E input h st = Ok out /\
    filtered nY nX (fun y x => stat_of E st (finites (around3 input h y x))) out.
Proof.
  intros HR HY HX HE Hh Hst.
  assert (L : stat_listed st). { unfold stat_listed. destruct Hst as [H|[H|[H|[H _]]]]; tauto. }
  destruct (neigh3_ok E input nY nX nE h HR HY HX Hh st L) as (o1 & E1 & T1).
  { intros y x Hy Hx. destruct Hst as [->|[->|[->|[-> (k & Hk & KK)]]]].
    - apply mm_concat; [auto|]. apply mapM_ok. intros m _. apply ens_stat_ok; exact L.
    - apply mm_concat; [auto|]. apply mapM_ok. intros m _. apply ens_stat_ok; exact L.
    - apply sum_concat.
    - apply (mean_concat E _ k Hk). intros l Hl. apply in_around in Hl as (i & j & _ & _ & G). eapply KK; eauto. }
  destruct (brute3_ok E input nY nX nE h HR HY HX Hh st L HE) as (o2 & E2 & T2 & F). assert (o1 = o2) as -> by congruence. eauto.
Qed.
Definition differs3 (st : statistic) (input : vec3) (h : Z) : Prop :=
  exists o1 o2, neighbourhood3 E0 input h st = Ok o1 /\ neighbourhood_brute_force3 E0 input h st = Ok o2 /\ o1 <> o2.
Lemma c19_refuted :
  (exists input, rect3 1 2 2 input /\ differs3 Mean input 1) /\
  (exists input, rect3 1 1 2 input /\ differs3 Count input 0) /\
  (exists input, rect3 1 2 3 input /\ differs3 Median input 1) /\
  (exists input, rect3 1 1 2 input /\ differs3 Variance input 0).
Proof.
  assert (R : forall (a : vec3) nY nX nE, zlen a = nY -> (forall r, In r a -> zlen r = nX /\ forall c, In c r -> zlen c = nE) -> rect3 nY nX nE a).
  { intros a nY nX nE H1 H2. split; [split; [exact H1|]; intros r Hr; apply H2; exact Hr|]. intros r c Hr Hc. apply (H2 r Hr). exact Hc. }
  repeat split.
  - exists [[[fz 0; NaN]; [fz 3; fz 6]]]. split.
    + apply R; [reflexivity|]. intros r [<-|[]]. split; [reflexivity|]. intros c [<-|[<-|[]]]; reflexivity.
    + exists [[fq (9#4); fq (9#4)]], [[fz 3; fz 3]]. split; [vcalc|]. split; [vcalc|]. intros H. vm_compute in H. discriminate H.
  - exists [[[fz 0; fz 1]]]. split.
    + apply R; [reflexivity|]. intros r [<-|[]]. split; [reflexivity|]. intros c [<-|[]]; reflexivity.
    + exists [[fz 1]], [[fz 2]]. split; [vcalc|]. split; [vcalc|]. intros H. vm_compute in H. discriminate H.
  - exists [[[fz 0; fz 0; fz 9]; [fz 8; fz 8; fz 8]]]. split.
    + apply R; [reflexivity|]. intros r [<-|[]]. split; [reflexivity|]. intros c [<-|[<-|[]]]; reflexivity.
    + exists [[fz 4; fz 4]], [[fz 8; fz 8]]. split; [vcalc|]. split; [vcalc|]. intros H. vm_compute in H. discriminate H.
  - exists [[[fz 0; fz 2]]]. split.
    + apply R; [reflexivity|]. intros r [<-|[]]. split; [reflexivity|]. intros c [<-|[]]; reflexivity.
    + exists [[fz 0]], [[fz 1]]. split; [vcalc|]. split; [vcalc|]. intros H. vm_compute in H. discriminate H.
Qed.

(** ** C15-C17 *)
Lemma c15_all E input nY nX h st : rect nY nX input -> 0 < nY -> 0 < nX -> 0 <= h -> st = Mean \/ st = Sum \/ st = Count ->
  exists out, neighbourhood E input h st = Ok out /\ neighbourhood_brute_force E input h st = Ok out /\
    filtered nY nX (fun y x => stat_of E st (finites (around input h y x))) out.
Proof. intros. apply neigh_all; try assumption. unfold stat_listed. tauto. Qed.
Lemma c16_all E input nY nX h st : rect nY nX input -> 0 < nY -> 0 < nX -> 0 <= h -> st = Min \/ st = Max ->
  exists out, neighbourhood E input h st = Ok out /\ neighbourhood_brute_force E input h st = Ok out /\
    filtered nY nX (fun y x => stat_of E st (finites (around input h y x))) out.
Proof. intros. apply neigh_all; try assumption. unfold stat_listed. tauto. Qed.
Lemma c17_all E input nY nX h : rect nY nX input -> 0 < nY -> 0 < nX -> 0 <= h ->
  (forall st, st = Variance \/ st = Std ->
   exists out, neighbourhood E input h st = Ok out /\ neighbourhood_brute_force E input h st = Ok out /\
     filtered nY nX (fun y x => stat_of E st (finites (around input h y x))) out) /\
  (exists out, neighbourhood E input h Variance = Ok out /\
     filtered nY nX (fun y x v => v = MV \/ exists q, v = Fin q /\ (0 <= q)%Qc) out).
Proof.
  intros HR HY HX Hh. split.
  - intros. apply neigh_all; try assumption. unfold stat_listed. tauto.
  - destruct (neigh_all E input nY nX h Variance HR HY HX Hh) as (out & EO & _ & R & F); [unfold stat_listed; tauto|].
    exists out. split; [exact EO|]. split; [exact R|]. intros y x Hy Hx. destruct (F y x Hy Hx) as (v & G & S). exists v. split; [exact G|].
    unfold stat_of in S. destruct (finites (around input h y x)) as [|q l]; [left; exact S|]. right. eexists. split; [exact S|]. apply qvar_nonneg.
Qed.
