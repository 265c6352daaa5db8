From Verif Require Import Base ListLib M_Stat M_Interp M_Neigh M_Fast S_Stat S_Interp S_Neigh S_Fast P_Stat P_Quant P_Even P_Interp P_Slice P_Window P_Neigh P_NeighAll P_NeighMore P_NeighSafe.

Lemma all_some_map l : all_some (map Some l) = Some l.
Proof. induction l as [|x l IH]; [reflexivity|]. cbn. rewrite IH. reflexivity. Qed.
Lemma sorted_from_qnth X : (forall i j, 0 <= i -> i <= j -> j < zlen X -> (qnth X i <= qnth X j)%Qc) -> qsorted X.
Proof.
  intros H. assert (E : X = map (qnth X) (zrange 0 (zlen X))).
  { apply znth_ext; [rewrite zlen_map, zlen_zrange; pose proof (zlen_nonneg X); lia|]. intros i Hi.
    rewrite znth_map_zrange by lia. rewrite qnth_znth by exact Hi. reflexivity. }
  rewrite E. apply sorted_map_zrange. intros; apply H; lia.
Qed.
Lemma fast_rule_facts X T q r : qsorted X -> qsorted T -> zlen X = zlen T -> 0 < zlen T -> (forall j, 0 <= j < zlen X -> (0 <= qnth X j <= 1)%Qc) ->
  fast_rule X T q r ->
  (qnth T 0 <= r <= qnth T (zlen T - 1))%Qc /\
  (forall k, 0 <= k < zlen T -> qnth X k = q -> (forall j, 0 <= j < zlen T -> j <> k -> qnth X j <> q) -> r = qnth T k).
Proof.
  intros SX ST HL HN H01 (R1 & R2 & R3).
  assert (TB : forall j, 0 <= j < zlen T -> (qnth T 0 <= qnth T j <= qnth T (zlen T - 1))%Qc).
  { intros j Hj. split; apply qnth_mono; auto; lia. }
  assert (INTERP : (exists a b, bracket X q a b /\ interp_rule X T q a b r) ->
    (qnth T 0 <= r <= qnth T (zlen T - 1))%Qc /\
    (forall k, 0 <= k < zlen T -> qnth X k = q -> (forall j, 0 <= j < zlen T -> j <> k -> qnth X j <> q) -> r = qnth T k)).
  { intros (a & b & HB & HI). split.
    + eapply interp_rule_between; [exact HB|exact HI|lia|]. intros j Hj _ _. apply TB. lia.
    + intros k Hk Ek U. destruct HB as (B1 & B2 & B3). destruct (B3 k ltac:(lia)) as (F1 & F2 & F3).
      assert (a <= k < b). { destruct (Z.lt_ge_cases k a); [specialize (F1 ltac:(lia)); exfalso; qlra|]. destruct (Z.lt_ge_cases k b); [lia|]. specialize (F3 ltac:(lia)). exfalso. qlra. }
      assert (a = k /\ b = k + 1) as [-> ->].
      { split.
        - destruct (Z.eq_dec a k); [assumption|]. exfalso. apply (U a ltac:(lia) ltac:(lia)). apply (B3 a); lia.
        - destruct (Z.eq_dec b (k + 1)); [assumption|]. exfalso. apply (U (b - 1) ltac:(lia) ltac:(lia)). apply (B3 (b - 1)); lia. }
      destruct HI as (I1 & I2 & I3 & I4 & I5 & I6 & I7). replace (k + 1 - 1) with k in * by lia.
      assert (HALF : ((qnth T k + qnth T k) / (1 + 1) = qnth T k)%Qc) by (field; discriminate).
      rewrite HALF in *.
      destruct (Z.eq_dec k 0), (Z.eq_dec (k + 1) (zlen X)); [apply I3|apply I4|apply I5|apply I6]; lia. }
  destruct (Qc_eq_dec q 1) as [Q1|Q1]; [destruct (Qc_eq_dec (qnth X 0) 1) as [X1|X1]|].
  - rewrite (R1 Q1 X1). split; [apply TB; lia|]. intros k Hk Ek U. destruct (Z.eq_dec k 0) as [->|Nk]; [reflexivity|].
    exfalso. apply (U 0 ltac:(lia) ltac:(lia)). congruence.
  - apply INTERP, R3; [intros [_ ?]; contradiction|]. intros [K _]. rewrite Q1 in K. discriminate K.
  - destruct (Qc_eq_dec q 0) as [Q0|Q0]; [destruct (Qc_eq_dec (qnth X (zlen X - 1)) 0) as [X0|X0]|].
    + rewrite (R2 Q0 X0). split; [apply TB; lia|]. intros k Hk Ek U. destruct (Z.eq_dec k (zlen T - 1)) as [->|Nk]; [reflexivity|].
      exfalso. apply (U (zlen T - 1) ltac:(lia) ltac:(lia)). rewrite <- HL. congruence.
    + apply INTERP, R3; [intros [? _]; contradiction|intros [_ ?]; contradiction].
    + apply INTERP, R3; [intros [? _]; contradiction|intros [? _]; contradiction].
Qed.

(** ** the common tail, for cells of any kind *)
Section Tail.
Context {A : Type}.
Variables (E : ext) (input : list (list A)) (nY nX h : Z) (T : list Qc) (g : A -> val -> val) (yval : val -> option val).
Hypotheses (HR : rect nY nX input) (HY : 0 < nY) (HX : 0 < nX) (Hh : 0 <= h) (ST : qsorted T) (HT : 0 < zlen T).
Hypothesis G01 : forall c t, g c (Fin t) = MV \/ exists q, g c (Fin t) = Fin q /\ (0 <= q <= 1)%Qc.
Hypothesis GM : forall c t t', (t <= t')%Qc ->
  (g c (Fin t) = MV /\ g c (Fin t') = MV) \/ exists q q', g c (Fin t) = Fin q /\ g c (Fin t') = Fin q' /\ (q <= q')%Qc.
Hypothesis YV : forall q, (0 <= q <= 1)%Qc -> yval (Fin q) = Some (Fin q).
Hypothesis YN : yval MV = None.
Definition Lw (w : list A) (t : Qc) : list Qc := finites (map (fun c => g c (Fin t)) w).
Definition Xw (w : list A) : list Qc := map (fun t => qmean (Lw w t)) T.
Lemma Lw_len w t t' : zlen (Lw w t) = zlen (Lw w t').
Proof.
  assert (G : forall t t', (t <= t')%Qc -> zlen (Lw w t) = zlen (Lw w t')).
  { clear t t'. intros t t' H. unfold Lw. induction w as [|c w IH]; [reflexivity|]. cbn [map].
    destruct (GM c t t' H) as [[-> ->]|(q & q' & -> & -> & _)]; cbn [finites MV]; [exact IH|]. rewrite !zlen_cons, IH. reflexivity. }
  destruct (Qclt_le_dec t t') as [L|L]; [apply G, Qclt_le_weak, L|symmetry; apply G, L].
Qed.
Lemma Lw_mono w t t' : (t <= t')%Qc -> (qsum (Lw w t) <= qsum (Lw w t'))%Qc.
Proof.
  intros H. unfold Lw. induction w as [|c w IH]; [apply Qcle_refl|]. cbn [map].
  destruct (GM c t t' H) as [[-> ->]|(q & q' & -> & -> & L)]; cbn [finites MV qsum]; [exact IH|]. qlra.
Qed.
Lemma Lw_01 w t x : In x (Lw w t) -> (0 <= x <= 1)%Qc.
Proof.
  unfold Lw. rewrite in_finites. intros H. apply in_map_iff in H as (c & E1 & _). destruct (G01 c t) as [G|(q & G & B)]; rewrite G in E1; [discriminate|].
  injection E1 as ->. exact B.
Qed.
Lemma Lw_nil w t t' : Lw w t = [] -> Lw w t' = [].
Proof. intros H. apply zlen_0_nil. rewrite <- (Lw_len w t t'), H. reflexivity. Qed.
Lemma mean_01 w t : Lw w t <> [] -> (0 <= qmean (Lw w t) <= 1)%Qc.
Proof.
  intros NE. destruct (min_exists _ NE) as (lo & Hlo). destruct (max_exists _ NE) as (hi & Hhi).
  destruct (mean_between _ _ _ NE Hlo Hhi) as [B1 B2].
  pose proof (Lw_01 w t lo (proj1 Hlo)) as [C1 _]. pose proof (Lw_01 w t hi (proj1 Hhi)) as [_ C2].
  split; [eapply Qcle_trans; eauto|eapply Qcle_trans; eauto].
Qed.
Lemma mean_mono w t t' : Lw w t <> [] -> (t <= t')%Qc -> (qmean (Lw w t) <= qmean (Lw w t'))%Qc.
Proof.
  intros NE H. unfold qmean, qlen. rewrite (Lw_len w t t'). pose proof (Lw_mono w t t' H) as S.
  assert (NE' : Lw w t' <> []) by (intros K; apply NE; eapply Lw_nil; eauto). pose proof (qlen_pos _ NE') as P. unfold qlen in P.
  apply qdiv_le_iff; [exact P|]. assert (E1 : (qsum (Lw w t') / qz (zlen (Lw w t')) * qz (zlen (Lw w t')) = qsum (Lw w t'))%Qc).
  { field. intros Z. rewrite Z in P. exact (Qclt_not_eq _ _ P eq_refl). }
  rewrite E1. exact S.
Qed.
Lemma Xw_len w : zlen (Xw w) = zlen T. Proof. apply zlen_map. Qed.
Lemma Xw_nth w k : 0 <= k < zlen T -> qnth (Xw w) k = qmean (Lw w (qnth T k)).
Proof.
  intros H. assert (E1 : znth (Xw w) k = Ok (qmean (Lw w (qnth T k)))). { unfold Xw. rewrite znth_map, qnth_znth by exact H. reflexivity. }
  rewrite qnth_znth in E1 by (rewrite Xw_len; exact H). congruence.
Qed.
Lemma Xw_sorted w : Lw w (qnth T 0) <> [] -> qsorted (Xw w).
Proof.
  intros NE. apply sorted_from_qnth. rewrite Xw_len. intros i j Hi Hij Hj. rewrite !Xw_nth by lia.
  apply mean_mono; [|apply qnth_mono; auto; lia]. intros K. apply NE. eapply Lw_nil; eauto.
Qed.
Lemma fast_stats_ok : exists stats,
  fast_stats E nY nX h (map Fin T) (fun y x thr => c <- get2 input y x ;; Ok (g c thr)) = Ok stats /\
  forall t y x, 0 <= t < zlen T -> 0 <= y < nY -> 0 <= x < nX -> exists v, get3 stats t y x = Ok v /\
    stat_of E Mean (Lw (around input h y x) (qnth T t)) v.
Proof.
  unfold fast_stats. rewrite zlen_map. rewrite for1_init_tab by lia.
  destruct (mapM_total (fun t => thr <- znth (map Fin T) t ;;
      temp <- for2 nY nX (init2 nY nX MV) (fun y x => c <- get2 input y x ;; Ok (g c thr)) ;; neighbourhood E temp h Mean)
    (fun t m => filtered nY nX (fun y x => stat_of E Mean (Lw (around input h y x) (qnth T t))) m) (zrange 0 (zlen T))) as (stats & ES & LS & GS).
  - intros t Ht. apply in_zrange in Ht. rewrite znth_map, qnth_znth by lia. cbn [bind]. rewrite for2_init_tab by lia. rewrite tab2_cells by exact HR. cbn [bind].
    set (temp := map (map (fun c => g c (Fin (qnth T t)))) input).
    destruct (neigh_all E temp nY nX h Mean (rect_map _ _ _ _ HR) HY HX Hh) as (m & EM & _ & RM & FM); [unfold stat_listed; tauto|].
    exists m. split; [exact EM|]. split; [exact RM|]. intros y x Hy Hx. destruct (FM y x Hy Hx) as (v & G & S). exists v. split; [exact G|].
    unfold temp in S. rewrite around_map in S. exact S.
  - exists stats. rewrite ES. split; [reflexivity|]. intros t y x Ht Hy Hx.
    destruct (GS t t) as (m & Em & _ & _ & Fm); [rewrite znth_zrange by lia; f_equal; lia|]. destruct (Fm y x Hy Hx) as (v & G & S). exists v.
    split; [|exact S]. unfold get3, get2. rewrite Em. exact G.
Qed.
Lemma fast_cell_ok stats y x level : good_level level -> 0 <= y < nY -> 0 <= x < nX ->
  (forall t, 0 <= t < zlen T -> exists v, get3 stats t y x = Ok v /\ stat_of E Mean (Lw (around input h y x) (qnth T t)) v) ->
  exists v, fast_cell (map Fin T) stats yval level y x = Ok v /\
    fast_value (Lw (around input h y x) (qnth T 0) = []) (Xw (around input h y x)) T level v.
Proof.
  intros HL Hy Hx HS. set (w := around input h y x) in *. unfold fast_cell, fast_cell3. rewrite zlen_map.
  destruct (Lw w (qnth T 0)) as [|q0 l0] eqn:L0.
  - exists MV. split.
    + assert (EM : mapM (fun t => s <- get3 stats t y x ;; Ok (yval s)) (zrange 0 (zlen T)) = Ok (map (fun _ => None) (zrange 0 (zlen T)))).
      { apply mapM_ok. intros t Ht. apply in_zrange in Ht. destruct (HS t Ht) as (v & -> & S). cbn. rewrite (Lw_nil w _ (qnth T t) L0) in S. cbn in S. subst v.
        rewrite YN. reflexivity. }
      rewrite EM. cbn [bind]. rewrite zrange_cons by lia. reflexivity.
    + unfold fast_value. destruct level; try reflexivity. split; [tauto|]. intros K. exfalso. apply K. reflexivity.
  - assert (NE0 : Lw w (qnth T 0) <> []) by (rewrite L0; discriminate).
    assert (NE : forall t, Lw w t <> []) by (intros t K; apply NE0; eapply Lw_nil; eauto).
    assert (EM : mapM (fun t => s <- get3 stats t y x ;; Ok (yval s)) (zrange 0 (zlen T)) = Ok (map (fun t => Some (Fin (qnth (Xw w) t))) (zrange 0 (zlen T)))).
    { apply mapM_ok. intros t Ht. apply in_zrange in Ht. destruct (HS t Ht) as (v & -> & S). cbn.
      assert (v = Fin (qmean (Lw w (qnth T t)))) as ->. { unfold stat_of in S. specialize (NE (qnth T t)). destruct (Lw w (qnth T t)); [congruence|exact S]. }
      rewrite YV by (apply mean_01, NE). rewrite Xw_nth by lia. reflexivity. }
    rewrite EM. cbn [bind].
    assert (EX : map (fun t => Some (Fin (qnth (Xw w) t))) (zrange 0 (zlen T)) = map Some (map Fin (Xw w))).
    { rewrite map_map. apply znth_ext; [rewrite !zlen_map, zlen_zrange, Xw_len; lia|]. rewrite zlen_map, zlen_zrange. intros i Hi.
      rewrite znth_map_zrange by lia. rewrite znth_map, qnth_znth by (rewrite Xw_len; lia). reflexivity. }
    rewrite EX, all_some_map. rewrite !znth_map, !zlen_map, Xw_len, !qnth_znth by (rewrite ?Xw_len; lia). cbn [bind].
    pose proof (Xw_sorted w NE0) as SX. pose proof (Xw_len w) as LX.
    assert (X01 : forall j, 0 <= j < zlen (Xw w) -> (0 <= qnth (Xw w) j <= 1)%Qc). { intros j Hj. rewrite Xw_nth by lia. apply mean_01, NE. }
    destruct level as [| | |q].
    1-3: exists MV; split; reflexivity.
    assert (V1 : forall a b : Qc, veqb (Fin a) (Fin b) = qeqb a b) by reflexivity.
    unfold fz. rewrite !V1. change (qz 1) with 1%Qc. change (qz 0) with 0%Qc.
    destruct (interpolate_spec q (Xw w) T SX) as (a & b & r & HB & EI & HI); [intros K; rewrite K in LX; change (zlen (@nil Qc)) with 0 in LX; lia|lia|].
    assert (DONE : forall r, fast_rule (Xw w) T q r -> fast_value (q0 :: l0 = []) (Xw w) T (Fin q) (Fin r)).
    { intros r' FR. destruct (fast_rule_facts _ _ _ _ SX ST LX HT X01 FR) as [B1 B2].
      cbn. split; [split; discriminate|]. intros _. exists r'. repeat (split; [assumption||reflexivity|]). exact B2. }
    destruct (qeqb_spec q 1) as [Q1|Q1], (qeqb_spec (qnth (Xw w) 0) 1) as [X1|X1]; cbn [andb].
    + eexists. split; [reflexivity|]. apply DONE. split; [reflexivity|]. split; [intros Q0; exfalso; rewrite Q1 in Q0; discriminate Q0|].
      intros N1 _. exfalso. apply N1. split; assumption.
    + destruct (qeqb_spec q 0) as [Q0|Q0]; [exfalso; rewrite Q1 in Q0; discriminate Q0|]. cbn [andb]. rewrite EI. eexists. split; [reflexivity|]. apply DONE.
      split; [intros; contradiction|]. split; [intros; contradiction|]. eauto.
    + destruct (qeqb_spec q 0) as [Q0|Q0]; cbn [andb].
      * destruct (qeqb_spec (qnth (Xw w) (zlen T - 1)) 0) as [X0|X0].
        -- exfalso. assert (qnth (Xw w) 0 <= qnth (Xw w) (zlen T - 1))%Qc by (apply qnth_mono; auto; lia). rewrite X0, X1 in H. apply H. reflexivity.
        -- rewrite EI. eexists. split; [reflexivity|]. apply DONE. split; [intros; contradiction|]. split; [rewrite LX; intros; contradiction|]. eauto.
      * rewrite EI. eexists. split; [reflexivity|]. apply DONE. split; [intros; contradiction|]. split; [intros; contradiction|]. eauto.
    + destruct (qeqb_spec q 0) as [Q0|Q0]; cbn [andb].
      * destruct (qeqb_spec (qnth (Xw w) (zlen T - 1)) 0) as [X0|X0].
        -- eexists. split; [reflexivity|]. apply DONE. split; [intros; contradiction|]. split; [reflexivity|]. rewrite LX. intros _ N2. exfalso. apply N2. split; assumption.
        -- rewrite EI. eexists. split; [reflexivity|]. apply DONE. split; [intros; contradiction|]. split; [rewrite LX; intros; contradiction|]. eauto.
      * rewrite EI. eexists. split; [reflexivity|]. apply DONE. split; [intros; contradiction|]. split; [intros; contradiction|]. eauto.
Qed.
Lemma fast_tail_ok (quantile : vec2) (fixed : bool) (lev : Z -> Z -> val) :
  (forall y x, 0 <= y < nY -> 0 <= x < nX -> get2 quantile (if fixed then 0 else y) (if fixed then 0 else x) = Ok (lev y x) /\ good_level (lev y x)) ->
  exists out, fast_tail E nY nX h quantile fixed (map Fin T) (fun y x thr => c <- get2 input y x ;; Ok (g c thr)) yval = Ok out /\
    filtered nY nX (fun y x => fast_value (Lw (around input h y x) (qnth T 0) = []) (Xw (around input h y x)) T (lev y x)) out.
Proof.
  intros HQ. unfold fast_tail. rewrite zlen_map. replace (zlen T =? 0) with false by lia.
  destruct fast_stats_ok as (stats & -> & HS). cbn [bind].
  assert (EQ : exists fq, (if fixed then get2 quantile 0 0 else Ok MV) = Ok fq /\ (fixed = true -> fq = lev 0 0)).
  { destruct fixed; [|exists MV; split; [reflexivity|discriminate]]. destruct (HQ 0 0 ltac:(lia) ltac:(lia)) as [-> _]. eauto. }
  destruct EQ as (fq & -> & EFQ). cbn [bind]. rewrite for2_init_tab by lia.
  destruct (tab2_total nY nX (fun y x => q <- (if fixed then Ok fq else get2 quantile y x) ;; fast_cell (map Fin T) stats yval q y x)
     (fun y x => fast_value (Lw (around input h y x) (qnth T 0) = []) (Xw (around input h y x)) T (lev y x))) as (out & EO & RO & CO); [lia|lia| |].
  - intros y x Hy Hx. destruct (HQ y x Hy Hx) as [Q1 Q2].
    assert ((if fixed then Ok fq else get2 quantile y x) = Ok (lev y x)) as ->.
    { destruct fixed; [|exact Q1]. f_equal. rewrite EFQ by reflexivity. destruct (HQ 0 0 ltac:(lia) ltac:(lia)) as [Q3 _]. cbn in Q1, Q3. congruence. }
    cbn [bind]. apply fast_cell_ok; try assumption. intros t Ht. apply HS; assumption.
  - exists out. split; [apply omp_ok, EO|]. split; [exact RO|]. intros y x Hy Hx. destruct (CO y x Hy Hx) as (v & V1 & _ & V2). eauto.
Qed.
End Tail.

(** ** instance: 2D field *)
Lemma frac_single_fin v t : frac_single v (Fin t) = match v with Fin q => Fin (if qleb q t then 1 else 0)%Qc | _ => MV end.
Proof.
  destruct v as [| | |q]; try reflexivity. unfold frac_single. cbn [is_valid]. rewrite vleb_Fin. unfold fz. change (qz 1) with 1%Qc.
  rewrite vdiv_Fin by discriminate. f_equal. destruct (qleb q t); [reflexivity|]. change (qz 0) with 0%Qc. field. discriminate.
Qed.
Lemma single_01 v t : frac_single v (Fin t) = MV \/ exists q, frac_single v (Fin t) = Fin q /\ (0 <= q <= 1)%Qc.
Proof.
  rewrite frac_single_fin. destruct v as [| | |q]; auto. right. eexists. split; [reflexivity|]. destruct (qleb q t); split; qlra.
Qed.
Lemma single_mono v t t' : (t <= t')%Qc ->
  (frac_single v (Fin t) = MV /\ frac_single v (Fin t') = MV) \/ exists q q', frac_single v (Fin t) = Fin q /\ frac_single v (Fin t') = Fin q' /\ (q <= q')%Qc.
Proof.
  intros H. rewrite !frac_single_fin. destruct v as [| | |q]; auto. right. do 2 eexists. split; [reflexivity|]. split; [reflexivity|].
  destruct (qleb_spec q t), (qleb_spec q t'); try qlra.
Qed.
Lemma clamp01_id q : (0 <= q <= 1)%Qc -> clamp01 (Fin q) = Fin q.
Proof.
  intros [H0 H1]. unfold clamp01, fz. cbn. change (qz 1) with 1%Qc. change (qz 0) with 0%Qc.
  destruct (qltb_spec 1 q); [exfalso; qlra|]. destruct (qltb_spec q 0); [exfalso; qlra|]. reflexivity.
Qed.
Lemma yval2_ok q : (0 <= q <= 1)%Qc -> yval2 (Fin q) = Some (Fin q).
Proof.
  intros H. unfold yval2. cbn [is_valid]. unfold fz. change (qz 1) with 1%Qc. rewrite vdiv_Fin by discriminate.
  replace (q / 1)%Qc with q by (field; discriminate). rewrite clamp01_id by exact H. reflexivity.
Qed.
Lemma Lw_single w t : Lw frac_single w t = map (fun x => if qleb x t then 1 else 0)%Qc (finites w).
Proof.
  unfold Lw. induction w as [|v w IH]; [reflexivity|]. cbn [map]. rewrite frac_single_fin. destruct v; cbn; try exact IH. f_equal. exact IH.
Qed.
Lemma sum_indicator l t : qsum (map (fun x => if qleb x t then 1 else 0)%Qc l) = qz (count_le l t).
Proof.
  unfold count_le. induction l as [|x l IH]; [reflexivity|]. cbn [map qsum filter]. rewrite IH. destruct (qleb x t).
  - rewrite zlen_cons, qz_add. change (qz 1) with 1%Qc. ring.
  - ring.
Qed.
Lemma mean_single w t : qmean (Lw frac_single w t) = frac_le (finites w) t.
Proof. rewrite Lw_single. unfold qmean, frac_le, qlen. rewrite sum_indicator, zlen_map. reflexivity. Qed.
Lemma single_none w t : Lw frac_single w t = [] <-> finites w = [].
Proof. rewrite Lw_single. destruct (finites w); cbn; split; congruence. Qed.

(** ** instance: ensembles *)
Lemma frac_fold t l : forall s c, fold_left (frac_step (Fin t)) (map Fin l) (s, c) = (s + count_le l t, c + zlen l).
Proof.
  unfold count_le. induction l as [|x l IH]; intros s c; [cbn; change (zlen (@nil Qc)) with 0; f_equal; lia|].
  cbn [map fold_left filter]. assert (F : frac_step (Fin t) (s, c) (Fin x) = (if qleb x t then s + 1 else s, c + 1)) by (unfold frac_step; cbn [is_valid fst snd]; rewrite vleb_Fin; reflexivity).
  rewrite F, IH, zlen_cons. destruct (qleb x t); [rewrite zlen_cons|]; f_equal; lia.
Qed.
Lemma frac_members_fin m t : frac_members m (Fin t) = match finites m with [] => MV | _ => Fin (frac_le (finites m) t) end.
Proof.
  unfold frac_members. rewrite fold_skip.
  2:{ intros s v H. unfold frac_step. rewrite H. reflexivity. }
  rewrite frac_fold. rewrite !Z.add_0_l. destruct (finites m) as [|x l] eqn:F; [reflexivity|].
  replace (0 <? zlen (x :: l)) with true by (rewrite zlen_cons; pose proof (zlen_nonneg l); lia).
  unfold fz. rewrite vdiv_Fin; [reflexivity|]. apply (qlen_neq0 (x :: l)). discriminate.
Qed.
Lemma count_le_bounds l t : 0 <= count_le l t <= zlen l.
Proof.
  unfold count_le. split; [apply zlen_nonneg|]. induction l as [|x l IH]; [reflexivity|]. cbn. destruct (qleb x t); rewrite ?zlen_cons; lia.
Qed.
Lemma count_le_mono l t t' : (t <= t')%Qc -> count_le l t <= count_le l t'.
Proof.
  intros H. unfold count_le. induction l as [|x l IH]; [reflexivity|]. cbn. destruct (qleb_spec x t), (qleb_spec x t'); rewrite ?zlen_cons; try lia. exfalso. qlra.
Qed.
Lemma frac_le_01 l t : l <> [] -> (0 <= frac_le l t <= 1)%Qc.
Proof.
  intros NE. pose proof (qlen_pos l NE) as P. pose proof (count_le_bounds l t) as [B1 B2]. apply qz_le in B1, B2. unfold frac_le. split.
  - apply qdiv_nonneg; [exact B1|exact P].
  - apply qdiv_le_iff; [exact P|]. rewrite Qcmult_1_l. exact B2.
Qed.
Lemma frac_le_mono l t t' : l <> [] -> (t <= t')%Qc -> (frac_le l t <= frac_le l t')%Qc.
Proof.
  intros NE H. pose proof (qlen_pos l NE) as P. pose proof (count_le_mono l t t' H) as B. apply qz_le in B. unfold frac_le.
  apply qdiv_le_iff; [exact P|]. replace (qz (count_le l t') / qlen l * qlen l)%Qc with (qz (count_le l t')); [exact B|].
  field. apply qlen_neq0. exact NE.
Qed.
Lemma members_01 v t : frac_members v (Fin t) = MV \/ exists q, frac_members v (Fin t) = Fin q /\ (0 <= q <= 1)%Qc.
Proof.
  rewrite frac_members_fin. destruct (finites v) eqn:F; [auto|]. right. eexists. split; [reflexivity|]. apply frac_le_01. discriminate.
Qed.
Lemma members_mono v t t' : (t <= t')%Qc ->
  (frac_members v (Fin t) = MV /\ frac_members v (Fin t') = MV) \/ exists q q', frac_members v (Fin t) = Fin q /\ frac_members v (Fin t') = Fin q' /\ (q <= q')%Qc.
Proof.
  intros H. rewrite !frac_members_fin. destruct (finites v) eqn:F; [auto|]. right. do 2 eexists. split; [reflexivity|]. split; [reflexivity|].
  apply frac_le_mono; [discriminate|exact H].
Qed.
Lemma yval3_fold q n : forall s c, fold_left (fun a (_ : Z) => if is_valid (Fin q) then (vadd (fst a) (Fin q), snd a + 1) else a) (zrange 0 (Z.of_nat n)) (Fin s, c)
  = (Fin (s + qz (Z.of_nat n) * q)%Qc, c + Z.of_nat n).
Proof.
  assert (G : forall l s c, fold_left (fun a (_ : Z) => if is_valid (Fin q) then (vadd (fst a) (Fin q), snd a + 1) else a) l (Fin s, c) = (Fin (s + qz (zlen l) * q)%Qc, c + zlen l)).
  { induction l as [|x l IH]; intros s c; cbn [fold_left is_valid fst snd vadd].
    - change (zlen (@nil Z)) with 0. change (qz 0) with 0%Qc. f_equal; [f_equal; ring|lia].
    - rewrite IH, zlen_cons, qz_add. change (qz 1) with 1%Qc. f_equal; [f_equal; ring|lia]. }
  intros s c. rewrite G, zlen_zrange. replace (Z.max 0 (Z.of_nat n - 0)) with (Z.of_nat n) by lia. reflexivity.
Qed.
Lemma yval3_ok nE q : 0 < nE -> (0 <= q <= 1)%Qc -> yval3 nE (Fin q) = Some (Fin q).
Proof.
  intros HE H. unfold yval3. replace nE with (Z.of_nat (Z.to_nat nE)) by lia. unfold fz. rewrite yval3_fold. rewrite Z.add_0_l.
  rewrite (proj2 (Z.ltb_lt 0 _)) by lia. rewrite vdiv_Fin by (rewrite <- qz_0; intros K; apply qz_inj in K; lia).
  replace ((qz 0 + qz (Z.of_nat (Z.to_nat nE)) * q) / qz (Z.of_nat (Z.to_nat nE)))%Qc with q.
  - rewrite clamp01_id by exact H. reflexivity.
  - change (qz 0) with 0%Qc. field. rewrite <- qz_0. intros K. apply qz_inj in K. lia.
Qed.
Lemma yval3_none nE : yval3 nE MV = None.
Proof. unfold yval3. generalize (zrange 0 nE). intros l. assert (G : forall s, fold_left (fun a (_ : Z) => if is_valid MV then (vadd (fst a) MV, snd a + 1) else a) l s = s) by (induction l; auto). rewrite G. reflexivity. Qed.
Lemma Lw_members w t : Lw frac_members w t = cell_fracs w t.
Proof.
  unfold Lw, cell_fracs. induction w as [|m w IH]; [reflexivity|]. cbn [map filter]. rewrite frac_members_fin. destruct (finites m) eqn:F; cbn [finites MV]; [exact IH|].
  cbn [map]. rewrite F. f_equal. exact IH.
Qed.
Lemma members_none w t : Lw frac_members w t = [] <-> finites (concat w) = [].
Proof.
  rewrite Lw_members. unfold cell_fracs. induction w as [|m w IH]; [cbn; tauto|]. cbn [filter concat]. rewrite finites_app.
  destruct (finites m) eqn:F; [exact IH|]. cbn. split; discriminate.
Qed.

(** ** levels and sizes *)
Lemma level_ok_good q : level_ok q = true <-> good_level q.
Proof.
  unfold level_ok, good_level. destruct q as [| | |q]; cbn; try tauto. change (qz 0) with 0%Qc. change (qz 1) with 1%Qc.
  destruct (qltb_spec q 0) as [A|A], (qltb_spec 1 q) as [B|B]; cbn; split; intros H; try discriminate; try reflexivity.
  - destruct H. exfalso. qlra.
  - destruct H. exfalso. qlra.
  - destruct H. exfalso. qlra.
  - split; apply Qcnot_lt_le; assumption.
Qed.
Definition lev_at (quantile : vec2) (fixed : bool) (y x : Z) : val :=
  match get2 quantile (if fixed then 0 else y) (if fixed then 0 else x) with Ok v => v | _ => NaN end.
(** the shapes of level fields the function accepts *)
Lemma sizes_ok quantile nY nX : 0 < nY -> 0 < nX -> (rect 1 1 quantile \/ rect nY nX quantile) -> (forall y x q, get2 quantile y x = Ok q -> good_level q) ->
  exists fixed, has_size quantile 1 1 = Ok fixed /\
    (full <- (if fixed then Ok true else has_size quantile nY nX) ;; Ok full) = Ok true /\
    forallb (forallb level_ok) quantile = true /\
    (forall y x, 0 <= y < nY -> 0 <= x < nX ->
      get2 quantile (if fixed then 0 else y) (if fixed then 0 else x) = Ok (lev_at quantile fixed y x) /\ good_level (lev_at quantile fixed y x)) /\
    (rect 1 1 quantile -> fixed = true) /\ (fixed = true -> rect 1 1 quantile).
Proof.
  intros HY HX HR HG.
  assert (ALL : forallb (forallb level_ok) quantile = true).
  { apply forallb_forall. intros r Hr. apply forallb_forall. intros q Hq. apply level_ok_good.
    destruct (In_znth _ _ Hr) as (y & Ey). destruct (In_znth _ _ Hq) as (x & Ex). apply (HG y x). unfold get2. rewrite Ey. exact Ex. }
  assert (SZ : forall a b, 0 < a -> rect a b quantile -> has_size quantile a b = Ok true).
  { intros a b Ha [A B]. unfold has_size. rewrite A, Z.eqb_refl. destruct (znth_some quantile 0 ltac:(lia)) as (r & Er). rewrite Er. cbn.
    rewrite (B r (znth_In _ _ _ Er)), Z.eqb_refl. reflexivity. }
  assert (LEV : forall (fixed : bool) y x, (exists v, get2 quantile (if fixed then 0 else y) (if fixed then 0 else x) = Ok v) ->
     get2 quantile (if fixed then 0 else y) (if fixed then 0 else x) = Ok (lev_at quantile fixed y x) /\ good_level (lev_at quantile fixed y x)).
  { intros fixed y x (v & Ev). unfold lev_at. rewrite Ev. split; [reflexivity|]. eapply HG; eauto. }
  assert (C11 : rect 1 1 quantile \/ (~ rect 1 1 quantile /\ has_size quantile 1 1 = Ok false)).
  { destruct HR as [R|R]; [left; exact R|]. destruct (Z.eq_dec nY 1) as [->|N]; [destruct (Z.eq_dec nX 1) as [->|N]; [left; exact R|]|].
    - right. destruct R as [A B]. destruct (znth_some quantile 0 ltac:(lia)) as (r & Er). pose proof (B r (znth_In _ _ _ Er)) as L. split.
      + intros [_ B']. pose proof (B' r (znth_In _ _ _ Er)). lia.
      + unfold has_size. rewrite A. cbn [Z.eqb]. rewrite Er. cbn. f_equal. lia.
    - right. destruct R as [A B]. split; [intros [A' _]; lia|]. unfold has_size. replace (zlen quantile =? 1) with false by lia. reflexivity. }
  destruct C11 as [R|[NR S11]].
  - exists true. split; [apply SZ; [lia|exact R]|]. split; [reflexivity|]. split; [exact ALL|]. split; [|auto].
    intros y x _ _. apply (LEV true y x). apply (rect_get2 1 1); [exact R|lia|lia].
  - exists false. destruct HR as [R|R]; [contradiction|]. split; [exact S11|]. split; [rewrite (SZ nY nX HY R); reflexivity|]. split; [exact ALL|].
    split; [|split; [intros; contradiction|discriminate]]. intros y x Hy Hx. apply (LEV false y x). apply (rect_get2 nY nX); assumption.
Qed.

(** level of a cell: the single entry of a 1x1 field, otherwise the cell's own *)
Lemma lev_at_cell quantile fixed nY nX y x : (rect 1 1 quantile -> fixed = true) -> (fixed = true -> rect 1 1 quantile) ->
  (rect 1 1 quantile \/ rect nY nX quantile) -> 0 <= y < nY -> 0 <= x < nX ->
  forall q, level_at quantile y x q -> lev_at quantile fixed y x = q.
Proof.
  intros F1 F2 HR Hy Hx q [[R G]|[R G]].
  - rewrite (F1 R). unfold lev_at. rewrite G. reflexivity.
  - destruct fixed; [exfalso; apply R, F2; reflexivity|]. unfold lev_at. rewrite G. reflexivity.
Qed.
Lemma fast_value_ext (A B : Prop) X Y T l v : (A <-> B) -> X = Y -> fast_value A X T l v -> fast_value B Y T l v.
Proof.
  intros H <-. unfold fast_value. destruct l; auto. intros [I1 I2]. split; [tauto|]. intros K. apply I2. tauto.
Qed.
Definition fast_ok2 (input quantile : vec2) (h : Z) (T : list Qc) (y x : Z) (v : val) : Prop :=
  exists level, level_at quantile y x level /\
    fast_value (finites (around input h y x) = []) (map (frac_le (finites (around input h y x))) T) T level v.
Lemma quantile_fast2_ok E input quantile nY nX h T : rect nY nX input -> 0 < nY -> 0 < nX -> 0 <= h -> qsorted T -> T <> [] ->
  (rect 1 1 quantile \/ rect nY nX quantile) -> (forall y x q, get2 quantile y x = Ok q -> good_level q) ->
  exists out, quantile_fast2 E input quantile h (map Fin T) = Ok out /\
    filtered nY nX (fast_ok2 input quantile h T) out.
Proof.
  intros HR HY HX Hh ST NT HQ HG. unfold quantile_fast2. replace (h <? 0) with false by lia.
  pose proof HR as [RL _]. replace (zlen input =? 0) with false by lia.
  destruct (first_row _ _ _ HR HY) as (r & Er & Lr). rewrite Er. cbn [bind]. replace (zlen r =? 0) with false by lia. rewrite RL, Lr.
  destruct (sizes_ok quantile nY nX HY HX HQ HG) as (fixed & S1 & S2 & S3 & S4 & S5 & S6). rewrite S1. cbn [bind].
  destruct (if fixed then Ok true else has_size quantile nY nX) as [full| | |]; try discriminate S2. cbn [bind] in S2 |- *. injection S2 as ->. cbn [negb].
  rewrite S3. cbn [negb].
  assert (HT : 0 < zlen T) by (destruct T; [congruence|rewrite zlen_cons; pose proof (zlen_nonneg T); lia]).
  destruct (fast_tail_ok E input nY nX h T frac_single yval2 HR HY HX Hh ST HT single_01 single_mono yval2_ok eq_refl quantile fixed (lev_at quantile fixed) S4) as (out & EO & RO & CO).
  exists out. split; [exact EO|]. split; [exact RO|]. intros y x Hy Hx. destruct (CO y x Hy Hx) as (v & Ev & FV). exists v. split; [exact Ev|].
  exists (lev_at quantile fixed y x). split.
  - destruct (S4 y x Hy Hx) as [G _]. destruct fixed; [left; split; [apply S6; reflexivity|exact G]|right; split; [|exact G]].
    intros R. specialize (S5 R). discriminate.
  - eapply fast_value_ext; [apply single_none| |exact FV]. unfold Xw. apply map_ext. intros t. apply mean_single.
Qed.
Definition fast_ok3 (input : vec3) (quantile : vec2) (h : Z) (T : list Qc) (y x : Z) (v : val) : Prop :=
  exists level, level_at quantile y x level /\
    fast_value (finites (around3 input h y x) = []) (map (fun t => qmean (cell_fracs (around input h y x) t)) T) T level v.
Lemma tail_frac_ext E nY nX h quantile fixed thr f g yv : 0 <= nY -> 0 <= nX ->
  (forall y x t, 0 <= y < nY -> 0 <= x < nX -> f y x t = g y x t) ->
  fast_tail E nY nX h quantile fixed thr f yv = fast_tail E nY nX h quantile fixed thr g yv.
Proof.
  intros HY HX H. unfold fast_tail. destruct (zlen thr =? 0); [reflexivity|]. f_equal. unfold fast_stats. f_equal.
  rewrite !for1_init_tab by apply zlen_nonneg. apply mapM_ext. intros t _. destruct (znth thr t) as [c| | |]; [|reflexivity..]. cbn [bind].
  rewrite !for2_init_tab by assumption. f_equal. apply tab2_ext. intros y x Hy Hx. apply H; assumption.
Qed.
Lemma quantile_fast3_ok E input quantile nY nX nE h T : rect3 nY nX nE input -> 0 < nY -> 0 < nX -> 0 < nE -> 0 <= h -> qsorted T -> T <> [] ->
  (rect 1 1 quantile \/ rect nY nX quantile) -> (forall y x q, get2 quantile y x = Ok q -> good_level q) ->
  exists out, quantile_fast3 E input quantile h (map Fin T) = Ok out /\
    filtered nY nX (fast_ok3 input quantile h T) out.
Proof.
  intros [HR HE3] HY HX HE Hh ST NT HQ HG. unfold quantile_fast3. replace (h <? 0) with false by lia.
  pose proof HR as [RL _]. replace (zlen input =? 0) with false by lia.
  destruct (znth_some input 0 ltac:(lia)) as (r & Er). pose proof (proj2 HR r (znth_In _ _ _ Er)) as Lr. rewrite Er. cbn [bind]. replace (zlen r =? 0) with false by lia. rewrite RL, Lr.
  destruct (znth_some r 0 ltac:(lia)) as (c & Ec). rewrite Ec. cbn [bind].
  assert (Lc : zlen c = nE) by (apply (HE3 r); [exact (znth_In _ _ _ Er)|exact (znth_In _ _ _ Ec)]). rewrite Lc. replace (nE =? 0) with false by lia.
  destruct (sizes_ok quantile nY nX HY HX HQ HG) as (fixed & S1 & S2 & S3 & S4 & S5 & S6). rewrite S1. cbn [bind].
  destruct (if fixed then Ok true else has_size quantile nY nX) as [full| | |]; try discriminate S2. cbn [bind] in S2 |- *. injection S2 as ->. cbn [negb].
  rewrite S3. cbn [negb].
  assert (HT : 0 < zlen T) by (destruct T; [congruence|rewrite zlen_cons; pose proof (zlen_nonneg T); lia]).
  rewrite (tail_frac_ext E nY nX h quantile fixed (map Fin T) _ (fun y x thr => c <- get2 input y x ;; Ok (frac_members c thr))) ; [|lia|lia|].
  2:{ intros y x t Hy Hx. destruct (rect_get2 nY nX input y x HR Hy Hx) as (m & Em). unfold get3. rewrite Em. cbn [bind].
      assert (Lm : zlen m = nE). { unfold get2 in Em. destruct (znth input y) as [rr| | |] eqn:Err; try discriminate. cbn in Em. apply (HE3 rr); [exact (znth_In _ _ _ Err)|exact (znth_In _ _ _ Em)]. }
      rewrite (mapM_ext _ (fun e => a <- znth m e ;; Ok a)) by (intros e _; destruct (znth m e); reflexivity).
      rewrite <- Lm, mapM_zrange_znth, (mapM_ok _ (fun v => v)) by reflexivity. cbn [bind]. rewrite map_id. reflexivity. }
  destruct (fast_tail_ok E input nY nX h T frac_members (yval3 nE) HR HY HX Hh ST HT members_01 members_mono (fun q => yval3_ok nE q HE) (yval3_none nE) quantile fixed (lev_at quantile fixed) S4) as (out & EO & RO & CO).
  exists out. split; [exact EO|]. split; [exact RO|]. intros y x Hy Hx. destruct (CO y x Hy Hx) as (v & Ev & FV). exists v. split; [exact Ev|].
  exists (lev_at quantile fixed y x). split.
  - destruct (S4 y x Hy Hx) as [G _]. destruct fixed; [left; split; [apply S6; reflexivity|exact G]|right; split; [|exact G]].
    intros R. specialize (S5 R). discriminate.
  - eapply fast_value_ext; [apply members_none| |exact FV]. unfold Xw. apply map_ext. intros t. f_equal. apply Lw_members.
Qed.

(** ** argument checks *)
Lemma has_size_rect (q : vec2) a b : 0 < a -> rect a b q -> has_size q a b = Ok true.
Proof.
  intros Ha [A B]. unfold has_size. rewrite A, Z.eqb_refl. destruct (znth_some q 0 ltac:(lia)) as (r & Er). rewrite Er. cbn.
  rewrite (B r (znth_In _ _ _ Er)), Z.eqb_refl. reflexivity.
Qed.
Lemma bad_level_found (quantile : vec2) y x q : get2 quantile y x = Ok q -> ~ good_level q -> forallb (forallb level_ok) quantile = false.
Proof.
  intros G B. destruct (forallb (forallb level_ok) quantile) eqn:F; [|reflexivity]. exfalso. apply B, level_ok_good.
  unfold get2 in G. destruct (znth quantile y) as [r| | |] eqn:Er; try discriminate. cbn in G.
  rewrite forallb_forall in F. specialize (F r (znth_In _ _ _ Er)). rewrite forallb_forall in F. exact (F q (znth_In _ _ _ G)).
Qed.
Lemma size_cases (quantile : vec2) nY nX : 0 < nY -> 0 < nX ->
  exists fixed full, has_size quantile 1 1 = Ok fixed /\ (if fixed then Ok true else has_size quantile nY nX) = Ok full.
Proof.
  intros HY HX. assert (H : forall a b, 0 < a -> exists r, has_size quantile a b = Ok r).
  { intros a b Ha. unfold has_size. destruct (zlen quantile =? a) eqn:L; [|eauto]. destruct (znth_some quantile 0 ltac:(lia)) as (r & ->). cbn. eauto. }
  destruct (H 1 1 ltac:(lia)) as (fixed & E1). exists fixed. destruct fixed; [eauto|]. destruct (H nY nX HY) as (full & ->). eauto.
Qed.
Lemma quantile_fast2_checks E input quantile nY nX h thr : rect nY nX input -> 0 < nY -> 0 < nX ->
  (h < 0 -> quantile_fast2 E input quantile h thr = Throw InvalidArgument) /\
  (0 <= h -> (exists y x q, get2 quantile y x = Ok q /\ ~ good_level q) -> quantile_fast2 E input quantile h thr = Throw InvalidArgument) /\
  (0 <= h -> zlen quantile <> 1 -> zlen quantile <> nY -> quantile_fast2 E input quantile h thr = Throw InvalidArgument) /\
  (0 <= h -> (rect 1 1 quantile \/ rect nY nX quantile) -> (forall y x q, get2 quantile y x = Ok q -> good_level q) ->
     quantile_fast2 E input quantile h [] = Ok (map (map (fun _ => MV)) input)).
Proof.
  intros HR HY HX. unfold quantile_fast2. pose proof HR as [RL _]. replace (zlen input =? 0) with false by lia.
  destruct (first_row _ _ _ HR HY) as (r & Er & Lr). rewrite Er. cbn [bind]. replace (zlen r =? 0) with false by lia. rewrite RL, Lr.
  split; [intros; replace (h <? 0) with true by lia; reflexivity|].
  split; [|split]; intros Hh; replace (h <? 0) with false by lia.
  - intros (y & x & q & G & B). destruct (size_cases quantile nY nX HY HX) as (fixed & full & -> & S2). cbn [bind]. rewrite S2. cbn [bind].
    destruct full; [|reflexivity]. cbn [negb]. rewrite (bad_level_found _ _ _ _ G B). reflexivity.
  - intros N1 N2. unfold has_size. replace (zlen quantile =? 1) with false by lia. cbn [bind]. replace (zlen quantile =? nY) with false by lia. reflexivity.
  - intros HQ HG. destruct (sizes_ok quantile nY nX HY HX HQ HG) as (fixed & -> & S2 & S3 & _). cbn [bind].
    destruct (if fixed then Ok true else has_size quantile nY nX) as [full| | |]; try discriminate S2. cbn [bind] in S2 |- *. injection S2 as ->. cbn [negb].
    rewrite S3. cbn [negb]. unfold fast_tail. change (zlen (@nil val) =? 0) with true. cbn iota. f_equal.
    apply (rect_ext nY nX); [apply rect_init2; lia|apply rect_map; exact HR|]. intros y x Hy Hx. unfold init2. rewrite get2_map_zrange by lia.
    destruct (rect_get2 nY nX input y x HR Hy Hx) as (v & Ev). rewrite (get2_map _ _ _ _ _ Ev). reflexivity.
Qed.
Lemma c22_all E : 
  (forall input nY nX h T q, rect nY nX input -> 0 < nY -> 0 < nX -> 0 <= h -> qsorted T -> T <> [] -> (0 <= q <= 1)%Qc ->
     exists out, neighbourhood_quantile_fast E input (Fin q) h (map Fin T) = Ok out /\
       filtered nY nX (fun y x => fast_value (finites (around input h y x) = []) (map (frac_le (finites (around input h y x))) T) T (Fin q)) out) /\
  (forall input nY nX h T quantile, rect nY nX input -> 0 < nY -> 0 < nX -> 0 <= h -> qsorted T -> T <> [] ->
     rect 1 1 quantile \/ rect nY nX quantile -> (forall y x q, get2 quantile y x = Ok q -> good_level q) ->
     exists out, quantile_fast2 E input quantile h (map Fin T) = Ok out /\
       filtered nY nX (fun y x v => exists level, level_at quantile y x level /\
         fast_value (finites (around input h y x) = []) (map (frac_le (finites (around input h y x))) T) T level v) out) /\
  (forall input nY nX nE h T quantile, rect3 nY nX nE input -> 0 < nY -> 0 < nX -> 0 < nE -> 0 <= h -> qsorted T -> T <> [] ->
     rect 1 1 quantile \/ rect nY nX quantile -> (forall y x q, get2 quantile y x = Ok q -> good_level q) ->
     exists out, quantile_fast3 E input quantile h (map Fin T) = Ok out /\
       filtered nY nX (fun y x v => exists level, level_at quantile y x level /\
         fast_value (finites (around3 input h y x) = []) (map (fun t => qmean (cell_fracs (around input h y x) t)) T) T level v) out).
Proof.
  split; [|split].
  - intros input nY nX h T q HR HY HX Hh ST NT Hq. assert (R1 : rect 1 1 [[Fin q]]) by (split; [reflexivity|intros r [<-|[]]; reflexivity]).
    destruct (quantile_fast2_ok E input [[Fin q]] nY nX h T HR HY HX Hh ST NT) as (out & EO & RO & CO); [left; exact R1| |].
    + intros y x v G. destruct (get2_range _ _ _ _ _ _ R1 G) as [Gy Gx]. replace y with 0 in G by lia. replace x with 0 in G by lia. cbv in G. injection G as <-. exact Hq.
    + exists out. split; [exact EO|]. split; [exact RO|]. intros y x Hy Hx. destruct (CO y x Hy Hx) as (v & Ev & level & HL & FV). exists v. split; [exact Ev|].
      destruct HL as [[_ G]|[N _]]; [|contradiction]. cbv in G. injection G as <-. exact FV.
  - intros. apply quantile_fast2_ok; assumption.
  - intros. eapply quantile_fast3_ok; eauto.
Qed.
