From Verif Require Import Base ListLib M_Stat M_Neigh S_Stat S_Neigh P_Stat P_Quant P_Even P_Slice P_Window P_Neigh.

(** ** statistics against their specification *)
Lemma stat_of_calc E a st : stat_listed st -> exists v, calc_statistic E a st = Ok v /\ stat_of E st (finites a) v.
Proof.
  intros Hst. destruct (calc_statistic_ok E a st Hst) as (v & Ev & V0 & _). exists v. split; [exact Ev|].
  unfold stat_of. destruct (finites a) as [|x l] eqn:F; [apply V0; reflexivity|]. clear V0.
  assert (NE : finites a <> []) by (rewrite F; discriminate).
  unfold stat_listed in Hst. decompose [or] Hst; subst.
  - rewrite calc_mean, F in Ev. injection Ev as <-. reflexivity.
  - rewrite calc_sum, F in Ev. injection Ev as <-. reflexivity.
  - rewrite calc_count, F in Ev. injection Ev as <-. reflexivity.
  - destruct (calc_min E a NE) as (r & Er & R). rewrite Er in Ev. injection Ev as <-. rewrite F in R. eauto.
  - destruct (calc_max E a NE) as (r & Er & R). rewrite Er in Ev. injection Ev as <-. rewrite F in R. eauto.
  - destruct (calc_quantile_is_quantile a (Q2Qc (1#2)) half_unit NE) as (r & Er & R).
    change (calc_statistic E a Median) with (calc_quantile a (Fin (Q2Qc (1#2)))) in Ev. rewrite Er in Ev. injection Ev as <-. rewrite F in R. eauto.
  - rewrite calc_var_std, F in Ev by auto. injection Ev as <-. reflexivity.
  - rewrite calc_var_std, F in Ev by auto. cbn in Ev. pose proof (qvar_nonneg (x :: l)) as N.
    destruct (qltb_spec (qvar (x :: l)) 0) as [L|_]; [exfalso; apply (Qclt_not_le _ _ L N)|]. injection Ev as <-. reflexivity.
Qed.
Lemma sq_mean_var l : l <> [] -> (qmean (map (fun x => x * x) l) - qmean l * qmean l = qvar l)%Qc.
Proof.
  intros H. rewrite <- (var_shift l 0 H). unfold qmean, qlen. rewrite zlen_map.
  assert (E1 : map (fun x => x - 0)%Qc l = l). { rewrite <- (map_id l) at 2. apply map_ext. intros; ring. }
  assert (E2 : map (fun x => (x - 0) * (x - 0))%Qc l = map (fun x => x * x)%Qc l). { apply map_ext. intros; ring. }
  rewrite E1, E2. reflexivity.
Qed.

(** ** every filter equals a table over windows *)
Lemma slice_map {A B} (g : A -> B) l lo hi : slice (map g l) lo hi = map g (slice l lo hi).
Proof.
  rewrite !slice_is_from. generalize 0. induction l as [|x l IH]; intros base; [unfold slice_from; cbn [map]; rewrite !combine_nil; reflexivity|].
  cbn [map]. rewrite !slice_from_cons, map_app, IH. destruct (_ && _); reflexivity.
Qed.
Lemma around_map {A B} (g : A -> B) f h y x : around (map (map g) f) h y x = map g (around f h y x).
Proof.
  unfold around. rewrite slice_map, map_map, concat_map, map_map. f_equal. apply map_ext. intros row. apply slice_map.
Qed.
Lemma tab2_ext {A} nY nX (f g : Z -> Z -> res A) : (forall i j, 0 <= i < nY -> 0 <= j < nX -> f i j = g i j) -> tab2 nY nX f = tab2 nY nX g.
Proof. intros H. unfold tab2. apply mapM_ext. intros i Hi. apply mapM_ext. intros j Hj. apply in_zrange in Hi, Hj. apply H; lia. Qed.
Lemma tab2_cells {A B} nY nX (f : list (list A)) (g : A -> B) : rect nY nX f ->
  tab2 nY nX (fun y x => v <- get2 f y x ;; Ok (g v)) = Ok (map (map g) f).
Proof.
  intros [HY HR]. unfold tab2. subst nY.
  rewrite (mapM_ext _ (fun i => row <- znth f i ;; Ok (map g row))).
  - rewrite mapM_zrange_znth. apply mapM_ok. reflexivity.
  - intros i Hi. apply in_zrange in Hi. destruct (znth_some f i Hi) as (row & Er). rewrite Er. cbn [bind].
    rewrite (mapM_ext _ (fun j => v <- znth row j ;; Ok (g v))) by (intros j _; unfold get2; rewrite Er; reflexivity).
    rewrite <- (HR row (znth_In _ _ _ Er)), mapM_zrange_znth. apply mapM_ok. reflexivity.
Qed.
Lemma rect_map {A B} nY nX (f : list (list A)) (g : A -> B) : rect nY nX f -> rect nY nX (map (map g) f).
Proof.
  intros [HY HR]. split; [rewrite zlen_map; exact HY|]. intros r Hr. apply in_map_iff in Hr as (r0 & <- & H). rewrite zlen_map. auto.
Qed.
Lemma get2_map {A B} (f : list (list A)) (g : A -> B) y x v : get2 f y x = Ok v -> get2 (map (map g) f) y x = Ok (g v).
Proof.
  unfold get2. intros H. apply bind_Ok in H as (r & Er & Ev). rewrite znth_map, Er. cbn. rewrite znth_map, Ev. reflexivity.
Qed.
Lemma omp_ok {A} (r : res A) a : r = Ok a -> omp r = Ok a.
Proof. intros ->. reflexivity. Qed.

Section Field.
Variables (E : ext) (input : vec2) (nY nX h : Z).
Hypotheses (HR : rect nY nX input) (HY : 0 < nY) (HX : 0 < nX) (Hh : 0 <= h).
Lemma first_row : exists r0, znth input 0 = Ok r0 /\ zlen r0 = nX.
Proof. destruct HR as [A B]. destruct (znth_some input 0 ltac:(lia)) as (r & Er). exists r. split; [exact Er|]. apply B. eapply znth_In; eauto. Qed.
Lemma brute_tab st q : brute_force2 E input h st q = omp (tab2 nY nX (fun y x =>
   if stat_eqb st Quantile then calc_quantile (around input h y x) q else calc_statistic E (around input h y x) st)).
Proof.
  unfold brute_force2. replace (h <? 0) with false by lia. destruct first_row as (r0 & -> & L). destruct HR as [HYl _].
  replace (zlen input =? 0) with false by lia. cbn [bind]. replace (zlen r0 =? 0) with false by lia. rewrite HYl, L.
  rewrite for2_init_tab by lia. f_equal. apply tab2_ext. intros y x Hy Hx. rewrite (hood_around input nY nX) by assumption. reflexivity.
Qed.
Lemma stat_tab_ok st : stat_listed st -> exists out,
  tab2 nY nX (fun y x => calc_statistic E (around input h y x) st) = Ok out /\
  filtered nY nX (fun y x => stat_of E st (finites (around input h y x))) out.
Proof.
  intros Hst. destruct (tab2_total nY nX (fun y x => calc_statistic E (around input h y x) st)
     (fun y x => stat_of E st (finites (around input h y x)))) as (out & EO & RO & CO); [lia|lia| |].
  - intros y x _ _. apply stat_of_calc. exact Hst.
  - exists out. split; [exact EO|]. split; [exact RO|]. intros y x Hy Hx. destruct (CO y x Hy Hx) as (v & A & _ & B). eauto.
Qed.
Lemma brute_ok st : stat_listed st -> exists out, neighbourhood_brute_force E input h st = Ok out /\
  tab2 nY nX (fun y x => calc_statistic E (around input h y x) st) = Ok out /\
  filtered nY nX (fun y x => stat_of E st (finites (around input h y x))) out.
Proof.
  intros Hst. destruct (stat_tab_ok st Hst) as (out & EO & F). exists out. split; [|tauto].
  unfold neighbourhood_brute_force. rewrite brute_tab. apply omp_ok. rewrite <- EO. apply tab2_ext. intros.
  unfold stat_listed in Hst. decompose [or] Hst; subst; reflexivity.
Qed.
End Field.
Lemma neigh_sat_ok E input nY nX h st : rect nY nX input -> 0 < nY -> 0 < nX -> 0 <= h -> st = Mean \/ st = Sum \/ st = Count ->
  neigh_sat input nY nX h st = omp (tab2 nY nX (fun y x => calc_statistic E (around input h y x) st)).
Proof.
  intros HR HY HX Hh Hst. unfold neigh_sat. destruct (sat_ok input nY nX HR) as (v & c & -> & I); [lia|lia|]. cbn [bind].
  rewrite for2_init_tab by lia. f_equal. apply tab2_ext. intros y x Hy Hx. apply sat_cell_spec; auto.
Qed.
Lemma finites_sq a : finites (map (fun v => vmul v v) a) = map (fun x => x * x)%Qc (finites a).
Proof. induction a as [|[| | |q] a IH]; cbn; try exact IH; [reflexivity|]. f_equal. exact IH. Qed.
Lemma neigh_ok E input nY nX h st : rect nY nX input -> 0 < nY -> 0 < nX -> 0 <= h -> stat_listed st ->
  exists out, neighbourhood E input h st = Ok out /\
  tab2 nY nX (fun y x => calc_statistic E (around input h y x) st) = Ok out.
Proof.
  intros HR HY HX Hh Hst. destruct (stat_tab_ok E input nY nX h HY HX st Hst) as (out & EO & _). exists out. split; [|exact EO].
  unfold neighbourhood. replace (h <? 0) with false by lia.
  assert (stat_eqb st Quantile = false) as ->. { unfold stat_listed in Hst. decompose [or] Hst; subst; reflexivity. }
  destruct (first_row input nY nX HR HY) as (r0 & -> & L). pose proof HR as [HYl _].
  replace (zlen input =? 0) with false by lia. cbn [bind]. replace (zlen r0 =? 0) with false by lia. rewrite HYl, L.
  assert (CASES : (st = Mean \/ st = Sum \/ st = Count) \/ (st = Min \/ st = Max) \/ (st = Variance \/ st = Std) \/ st = Median) by (unfold stat_listed in Hst; tauto).
  destruct CASES as [C|[C|[C| ->]]].
  - assert (neigh_sat input nY nX h st = Ok out) as G. { rewrite (neigh_sat_ok E) by assumption. apply omp_ok, EO. }
    destruct C as [->|[->| ->]]; exact G.
  - assert ((values <- omp (for_rows nY nX (init2 nY nX (fz 0)) (minmax_pre E input nY nX h st) (minmax_cell E input nY nX h st)) ;;
            omp (for2 nY nX (init2 nY nX MV) (fun i j => get2 values i j))) = Ok out) as G.
    { rewrite (for_rows_tab nY nX (fz 0) _ _ (fun y x => calc_statistic E (around input h y x) st)); [|lia|lia|].
      - rewrite (omp_ok _ _ EO). cbn [bind]. rewrite for2_init_tab by lia. apply omp_ok.
        rewrite (tab2_ext _ _ _ (fun i j => v <- get2 out i j ;; Ok v)).
        + rewrite tab2_cells; [f_equal; rewrite map_ext with (g := fun x => x); [apply map_id|apply map_id]|].
          apply tab2_inv in EO; [tauto|lia|lia].
        + intros i j _ _. destruct (get2 out i j); reflexivity.
      - intros i Hi. apply minmax_row; assumption. }
    destruct C as [->| ->]; exact G.
  - assert (forall b, stat_eqb st Std = b -> (mean <- neigh_sat input nY nX h Mean ;;
      input2 <- for2 nY nX (map (fun row => map (fun _ => fz 0) row) input) (fun y x => v <- get2 input y x ;; Ok (vmul v v)) ;;
      mean2 <- neigh_sat input2 nY nX h Mean ;;
      for2 nY nX (init2 nY nX MV) (fun y x =>
        m2 <- get2 mean2 y x ;; m <- get2 mean y x ;;
        let d := vsub m2 (vmul m m) in
        Ok (if b then vsqrt E d else d))) = Ok out) as G.
    { intros b Hb. rewrite (neigh_sat_ok E) by tauto.
      destruct (stat_tab_ok E input nY nX h HY HX Mean) as (m1 & E1 & _); [unfold stat_listed; tauto|]. rewrite (omp_ok _ _ E1). cbn [bind].
      rewrite for2_tab by (apply rect_map; exact HR). rewrite tab2_cells by exact HR. cbn [bind].
      set (input2 := map (map (fun v => vmul v v)) input). assert (R2 : rect nY nX input2) by (apply rect_map; exact HR).
      rewrite (neigh_sat_ok E input2) by tauto.
      destruct (stat_tab_ok E input2 nY nX h HY HX Mean) as (m2 & E2 & _); [unfold stat_listed; tauto|]. rewrite (omp_ok _ _ E2). cbn [bind].
      rewrite for2_init_tab by lia. rewrite <- EO. apply tab2_ext. intros y x Hy Hx.
      destruct (proj2 (tab2_inv nY nX _ m1 ltac:(lia) ltac:(lia) E1) y x Hy Hx) as (v1 & -> & V1).
      destruct (proj2 (tab2_inv nY nX _ m2 ltac:(lia) ltac:(lia) E2) y x Hy Hx) as (v2 & -> & V2). cbn [bind].
      rewrite calc_var_std by tauto. rewrite calc_mean in V1, V2. unfold input2 in V2. rewrite around_map, finites_sq in V2.
      rewrite Hb.
      destruct (finites (around input h y x)) as [|q l] eqn:F; cbn [map] in V2; injection V1 as <-; injection V2 as <-.
      - cbn. destruct b; reflexivity.
      - cbn [vmul vsub vadd vneg]. fold (Qcminus (qmean (q * q :: map (fun x0 => x0 * x0)%Qc l)) (qmean (q :: l) * qmean (q :: l)))%Qc.
        change ((q * q)%Qc :: map (fun x0 : Qc => (x0 * x0)%Qc) l) with (map (fun x0 : Qc => (x0 * x0)%Qc) (q :: l)).
        rewrite sq_mean_var by discriminate. reflexivity. }
    destruct C as [->| ->]; exact (G _ eq_refl).
  - destruct (brute_ok E input nY nX h HR HY HX Hh Median Hst) as (out' & EB & EO' & _). congruence.
Qed.
Lemma neigh_all E input nY nX h st : rect nY nX input -> 0 < nY -> 0 < nX -> 0 <= h -> stat_listed st ->
  exists out, neighbourhood E input h st = Ok out /\ neighbourhood_brute_force E input h st = Ok out /\
    filtered nY nX (fun y x => stat_of E st (finites (around input h y x))) out.
Proof.
  intros HR HY HX Hh Hst. destruct (neigh_ok E input nY nX h st HR HY HX Hh Hst) as (o1 & E1 & T1).
  destruct (brute_ok E input nY nX h HR HY HX Hh st Hst) as (o2 & E2 & T2 & F). assert (o1 = o2) as -> by congruence. eauto.
Qed.
