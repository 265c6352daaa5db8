From Verif Require Import Base ListLib M_Stat M_Neigh S_Stat S_Neigh P_Stat P_Quant P_Even P_Slice P_Window P_Neigh P_NeighAll P_NeighMore.

(** ** C20 *)
Lemma mapM_safe {A B} (f : A -> res B) l : (forall x, In x l -> f x <> UB) -> mapM f l <> UB.
Proof.
  induction l as [|x l IH]; intros H; cbn; [discriminate|]. pose proof (H x (or_introl eq_refl)). destruct (f x); cbn; try discriminate; [|congruence].
  assert (mapM f l <> UB) by (apply IH; intros; apply H; right; assumption). destruct (mapM f l); cbn; congruence.
Qed.
Lemma tab2_safe {A} nY nX (f : Z -> Z -> res A) : (forall i j, 0 <= i < nY -> 0 <= j < nX -> f i j <> UB) -> tab2 nY nX f <> UB.
Proof. intros H. unfold tab2. apply mapM_safe. intros i Hi. apply mapM_safe. intros j Hj. apply in_zrange in Hi, Hj. apply H; lia. Qed.
Lemma omp_safe {A} (r : res A) : r <> UB -> omp r <> UB.
Proof. destruct r; cbn; congruence. Qed.
Lemma calc_quantile_safe a q : calc_quantile a q <> UB.
Proof.
  destruct q as [| | |q]; [discriminate..|].
  destruct (qltb_spec q 0) as [H|H]; [unfold calc_quantile; cbn; destruct (qltb_spec q (qz 0)); [discriminate|]; rewrite qz_0 in *; contradiction|].
  destruct (qltb_spec 1 q) as [H1|H1].
  - unfold calc_quantile. cbn. destruct (qltb_spec (qz 1) q); [rewrite orb_true_r; discriminate|]. rewrite qz_1 in *. contradiction.
  - rewrite calc_quantile_value; [discriminate|]. split; apply Qcnot_lt_le; assumption.
Qed.
Lemma calc_statistic_safe E a st : 0 <= ext_rand E -> calc_statistic E a st <> UB.
Proof.
  intros HE. destruct (match st with RandomChoice => true | Quantile | Unknown => true | _ => false end) eqn:K.
  - destruct st; try discriminate. unfold calc_statistic. destruct (0 <? zlen (filter is_valid a)) eqn:L; [|discriminate].
    destruct (znth_some (filter is_valid a) (Z.rem (ext_rand E) (zlen (filter is_valid a)))) as (v & ->); [|discriminate].
    apply Z.rem_bound_pos; lia.
  - destruct (calc_statistic_ok E a st) as (v & -> & _); [|discriminate]. unfold stat_listed. destruct st; try discriminate; tauto.
Qed.
Lemma rect_cases {A} nY nX (f : list (list A)) : rect nY nX f -> f = [] \/ (0 < nY /\ nX = 0) \/ (0 < nY /\ 0 < nX).
Proof.
  intros [H1 H2]. destruct f as [|r f]; [auto|]. right. rewrite zlen_cons in H1. pose proof (zlen_nonneg f).
  pose proof (H2 r (or_introl eq_refl)). pose proof (zlen_nonneg r). lia.
Qed.
Lemma empty_head {A} nY (f : list (list A)) : rect nY 0 f -> 0 < nY -> exists r, f = [] :: r.
Proof.
  intros [H1 H2] HY. destruct f as [|r f]; [change (zlen (@nil (list A))) with 0 in H1; lia|]. exists f. f_equal.
  apply zlen_0_nil, H2. left. reflexivity.
Qed.
Lemma brute_safe E input nY nX h st q : 0 <= ext_rand E -> rect nY nX input -> brute_force2 E input h st q <> UB.
Proof.
  intros HE HR. destruct (h <? 0) eqn:Hh; [unfold brute_force2; rewrite Hh; discriminate|].
  destruct (rect_cases nY nX input HR) as [->|[[H1 ->]|[H1 H2]]].
  - unfold brute_force2. rewrite Hh. discriminate.
  - destruct (empty_head nY input HR H1) as (r & ->). unfold brute_force2. rewrite Hh. destruct (zlen _ =? 0); discriminate.
  - rewrite (brute_tab E input nY nX h HR H1 H2) by lia. apply omp_safe, tab2_safe. intros y x _ _.
    destruct (stat_eqb st Quantile); [apply calc_quantile_safe|apply calc_statistic_safe; exact HE].
Qed.
Lemma listed_dec st : stat_listed st \/ st = Quantile \/ st = RandomChoice \/ st = Unknown.
Proof. unfold stat_listed. destruct st; tauto. Qed.
Lemma neigh_unlisted E input h st : st = RandomChoice \/ st = Unknown -> 
  neighbourhood E input h st = neighbourhood_brute_force E input h st.
Proof.
  intros Hst. unfold neighbourhood, neighbourhood_brute_force.
  destruct (h <? 0) eqn:Hh; [destruct Hst as [->| ->]; unfold brute_force2; rewrite Hh; reflexivity|].
  destruct (zlen input =? 0) eqn:L0; [destruct Hst as [->| ->]; unfold brute_force2; rewrite Hh, L0; reflexivity|].
  destruct (znth input 0) as [r0| | |] eqn:Z0; try (destruct Hst as [->| ->]; unfold brute_force2; rewrite Hh, L0, Z0; reflexivity).
  destruct (zlen r0 =? 0) eqn:L1; destruct Hst as [->| ->]; cbn [stat_eqb bind]; rewrite L1; try reflexivity; unfold brute_force2; rewrite Hh, L0, Z0; cbn [bind]; rewrite L1; reflexivity.
Qed.
Lemma neigh_safe E input nY nX h st : 0 <= ext_rand E -> rect nY nX input -> neighbourhood E input h st <> UB.
Proof.
  intros HE HR. destruct (h <? 0) eqn:Hh; [unfold neighbourhood; rewrite Hh; discriminate|].
  destruct (listed_dec st) as [L|[->|[L|L]]].
  - destruct (rect_cases nY nX input HR) as [->|[[H1 ->]|[H1 H2]]].
    + unfold neighbourhood. rewrite Hh. destruct (stat_eqb st Quantile); discriminate.
    + destruct (empty_head nY input HR H1) as (r & ->). unfold neighbourhood. rewrite Hh. destruct (stat_eqb st Quantile); [discriminate|]. destruct (zlen _ =? 0); discriminate.
    + destruct (neigh_ok E input nY nX h st HR H1 H2 ltac:(lia) L) as (o & -> & _). discriminate.
  - unfold neighbourhood. rewrite Hh. discriminate.
  - rewrite neigh_unlisted by auto. eapply brute_safe; eauto.
  - rewrite neigh_unlisted by auto. eapply brute_safe; eauto.
Qed.
Lemma brute3_safe E input nY nX nE h st q : 0 <= ext_rand E -> rect3 nY nX nE input -> brute_force3 E input h st q <> UB.
Proof.
  intros HE HR. destruct (h <? 0) eqn:Hh; [unfold brute_force3; rewrite Hh; discriminate|]. pose proof HR as [HR2 _].
  destruct (rect_cases nY nX input HR2) as [->|[[H1 ->]|[H1 H2]]].
  - unfold brute_force3. rewrite Hh. discriminate.
  - destruct (empty_head nY input HR2 H1) as (r & ->). unfold brute_force3. rewrite Hh. destruct (zlen _ =? 0); discriminate.
  - destruct (first_cell input nY nX nE HR H1 H2) as (r0 & c0 & Z0 & L & Z1 & LE).
    destruct (Z.eq_dec nE 0) as [E0|E0].
    + unfold brute_force3. rewrite Hh, Z0. destruct (zlen input =? 0); [discriminate|]. cbn [bind]. destruct (zlen r0 =? 0); [discriminate|].
      rewrite Z1. cbn [bind]. replace (zlen c0 =? 0) with true by lia. discriminate.
    + pose proof (zlen_nonneg c0). rewrite (brute3_tab E input nY nX nE h HR H1 H2) by lia. apply omp_safe, tab2_safe. intros y x _ _.
      destruct (stat_eqb st Quantile); [apply calc_quantile_safe|apply calc_statistic_safe; exact HE].
Qed.
Lemma bind_safe {A B} (r : res A) (k : A -> res B) : r <> UB -> (forall a, r = Ok a -> k a <> UB) -> bind r k <> UB.
Proof. intros H1 H2. destruct r; cbn; try discriminate; [apply H2; reflexivity|congruence]. Qed.
Lemma neigh3_safe E input nY nX nE h st : 0 <= ext_rand E -> rect3 nY nX nE input -> 0 < nY -> 0 < nX -> neighbourhood3 E input h st <> UB.
Proof.
  intros HE HR H1 H2. destruct (first_cell input nY nX nE HR H1 H2) as (r0 & c0 & Z0 & L & Z1 & LE). destruct HR as [HR2 _]. pose proof HR2 as [HYl _].
  unfold neighbourhood3. rewrite Z0. cbn [bind]. rewrite Z1. cbn [bind]. rewrite HYl, L, for2_init_tab by lia.
  apply bind_safe.
  - apply tab2_safe. intros y x Hy Hx. destruct (rect_get2 nY nX input y x HR2 Hy Hx) as (m & ->). cbn. apply calc_statistic_safe; exact HE.
  - intros flat EF. apply tab2_inv in EF as [RF _]; [|lia|lia]. eapply neigh_safe; eauto.
Qed.
Lemma c20_partial :
  (forall E input nY nX h st q, 0 <= ext_rand E -> rect nY nX input ->
     neighbourhood E input h st <> UB /\ neighbourhood_brute_force E input h st <> UB /\ neighbourhood_quantile E input q h <> UB) /\
  (forall E input nY nX nE h st q, 0 <= ext_rand E -> rect3 nY nX nE input ->
     neighbourhood_brute_force3 E input h st <> UB /\ neighbourhood_quantile3 E input q h <> UB /\
     (0 < nY -> 0 < nX -> neighbourhood3 E input h st <> UB)) /\
  (forall E input h st q, 0 <= h -> empty2 input ->
     (st <> Quantile -> neighbourhood E input h st = Ok []) /\
     neighbourhood_brute_force E input h st = Ok [] /\ neighbourhood_quantile E input q h = Ok []) /\
  (forall E input h st q, 0 <= h -> empty3 input ->
     neighbourhood_brute_force3 E input h st = Ok [] /\ neighbourhood_quantile3 E input q h = Ok []).
Proof.
  split; [|split; [|split]].
  - intros E input nY nX h st q HE HR. split; [eapply neigh_safe; eauto|]. split; eapply brute_safe; eauto.
  - intros E input nY nX nE h st q HE HR. split; [eapply brute3_safe; eauto|]. split; [eapply brute3_safe; eauto|]. intros; eapply neigh3_safe; eauto.
  - intros E input h st q Hh HE.
    assert (B : forall st q, brute_force2 E input h st q = Ok []).
    { intros s' q'. unfold brute_force2. replace (h <? 0) with false by lia. destruct HE as [->|(r & ->)]; [reflexivity|].
      destruct (zlen _ =? 0); reflexivity. }
    split; [|split; apply B]. intros NQ. unfold neighbourhood. replace (h <? 0) with false by lia.
    destruct (stat_eqb st Quantile) eqn:Q; [apply stat_eqb_eq in Q; contradiction|]. destruct HE as [->|(r & ->)]; [reflexivity|].
    destruct (zlen _ =? 0); reflexivity.
  - intros E input h st q Hh HE.
    assert (B : forall st q, brute_force3 E input h st q = Ok []).
    { intros s' q'. unfold brute_force3. replace (h <? 0) with false by lia. destruct HE as [[->|(r & ->)]|(c & r & ->)]; [reflexivity|destruct (zlen _ =? 0); reflexivity|].
      destruct (zlen _ =? 0); [reflexivity|]. rewrite znth_cons0. cbn [bind]. destruct (zlen _ =? 0); reflexivity. }
    split; apply B.
Qed.
Lemma c20_refuted : exists input nY nX nE, rect3 nY nX nE input /\ forall E h st, neighbourhood3 E input h st = UB.
Proof. exists [], 0, 0, 0. split; [|reflexivity]. split; [split; [reflexivity|intros r []]|intros r c []]. Qed.

(** ** C21 *)
Lemma out_of_range_throws a q : (q < 0)%Qc \/ (1 < q)%Qc -> calc_quantile a (Fin q) = Throw InvalidArgument.
Proof.
  intros H. unfold calc_quantile. cbn. change (qz 0) with 0%Qc. change (qz 1) with 1%Qc.
  destruct (qltb_spec q 0); [reflexivity|]. destruct (qltb_spec 1 q); [reflexivity|]. tauto.
Qed.
Lemma tab2_throw {A} nY nX (f : Z -> Z -> res A) e : 0 < nY -> 0 < nX -> f 0 0 = Throw e -> tab2 nY nX f = Throw e.
Proof. intros H1 H2 H. unfold tab2. rewrite (zrange_cons 0 nY), (zrange_cons 0 nX) by lia. cbn. rewrite H. reflexivity. Qed.
Lemma c21_partial E h : h < 0 ->
  (forall input st, neighbourhood E input h st = Throw InvalidArgument) /\
  (forall input st, neighbourhood_brute_force E input h st = Throw InvalidArgument) /\
  (forall input q, neighbourhood_quantile E input q h = Throw InvalidArgument) /\
  (forall input st, neighbourhood_brute_force3 E input h st = Throw InvalidArgument) /\
  (forall input q, neighbourhood_quantile3 E input q h = Throw InvalidArgument) /\
  (forall input nY nX nE st, rect3 nY nX nE input -> 0 < nY -> 0 < nX -> stat_listed st -> neighbourhood3 E input h st = Throw InvalidArgument).
Proof.
  intros Hh. assert (HT : (h <? 0) = true) by lia. repeat split; intros.
  - unfold neighbourhood. rewrite HT. reflexivity.
  - unfold neighbourhood_brute_force, brute_force2. rewrite HT. reflexivity.
  - unfold neighbourhood_quantile, brute_force2. rewrite HT. reflexivity.
  - unfold neighbourhood_brute_force3, brute_force3. rewrite HT. reflexivity.
  - unfold neighbourhood_quantile3, brute_force3. rewrite HT. reflexivity.
  - rewrite (neigh3_flat E input nY nX nE) by assumption. unfold neighbourhood. rewrite HT. reflexivity.
Qed.
Lemma c21_refuted E input nY nX h q : rect nY nX input -> 0 < nY -> 0 < nX -> 0 <= h -> (q < 0)%Qc \/ (1 < q)%Qc ->
  neighbourhood_quantile E input (Fin q) h = Abort.
Proof.
  intros HR HY HX Hh Hq. unfold neighbourhood_quantile. rewrite (brute_tab E input nY nX h HR HY HX Hh).
  rewrite (tab2_throw nY nX _ InvalidArgument HY HX); [reflexivity|]. cbn. apply out_of_range_throws. exact Hq.
Qed.
Lemma c21_refuted_witness : exists E input q h, rect 1 1 input /\ 0 <= h /\ (1 < q)%Qc /\ neighbourhood_quantile E input (Fin q) h = Abort.
Proof.
  exists E0, [[fz 3]], (Q2Qc (3#2)), 0. split; [split; [reflexivity|intros r [<-|[]]; reflexivity]|]. split; [lia|]. split; [qlra|]. vm_compute. reflexivity.
Qed.

(** ** C25 *)
Lemma all_cells {A} nY nX (f : list (list A)) : rect nY nX f -> 
  mapM (fun y => mapM (fun x => get2 f y x) (zrange 0 nX)) (zrange 0 nY) = Ok f.
Proof.
  intros HR. change (tab2 nY nX (fun y x => get2 f y x) = Ok f). rewrite (tab2_ext _ _ _ (fun i j => v <- get2 f i j ;; Ok v)).
  - rewrite tab2_cells by exact HR. f_equal. rewrite map_ext with (g := fun x => x); [apply map_id|apply map_id].
  - intros i j _ _. destruct (get2 f i j); reflexivity.
Qed.
Lemma thresholds_tail l num : 0 < num ->
  thresholds_ok (finites l) num (all_values <- std_sort (filter is_valid l) ;; calc_even_quantiles all_values num).
Proof.
  intros Hn. rewrite filter_valid, std_sort_map. cbn [bind]. split.
  - intros ->. cbn. unfold calc_even_quantiles. rewrite orb_true_r. reflexivity.
  - intros NE. destruct (calc_even_quantiles_ok (qsort (finites l)) num) as (out & EO & O1 & O2 & O3 & O4 & O5 & O6 & _); [|lia|].
    { intros K. apply NE. apply Permutation_nil. rewrite <- K. apply perm_qsort. }
    exists out. split; [exact EO|]. split; [exact O1|]. split; [exact O2|]. split.
    { intros x Hx. eapply Permutation_in; [apply perm_qsort|]. apply O3, Hx. }
    split; [exact O4|]. split; [eapply is_min_perm; [apply perm_qsort|exact O5]|].
    intros H2. eapply is_max_perm; [apply perm_qsort|apply O6; exact H2].
Qed.
Lemma c25_all :
  (forall input nY nX num, rect nY nX input -> 0 < num -> 
     thresholds_ok (finites (concat input)) num (get_neighbourhood_thresholds input num)) /\
  (forall input nY nX nE num, rect3 nY nX nE input -> 0 < num -> 
     thresholds_ok (finites (concat (concat input))) num (get_neighbourhood_thresholds3 input num)) /\
  (forall input num, num <= 0 -> get_neighbourhood_thresholds input num = Throw InvalidArgument) /\
  (forall input num, num <= 0 -> get_neighbourhood_thresholds3 input num = Throw InvalidArgument).
Proof.
  assert (EMP : forall (f : vec2) nY, rect nY 0 f -> concat f = []).
  { intros f nY [_ H]. induction f as [|r f IH]; [reflexivity|]. cbn. rewrite IH by (intros; apply H; right; assumption).
    rewrite (zlen_0_nil r) by (apply H; left; reflexivity). reflexivity. }
  assert (T0 : forall num, thresholds_ok [] num (Ok [])) by (intros; split; [reflexivity|congruence]).
  split; [|split; [|split]].
  - intros input nY nX num HR Hn. unfold get_neighbourhood_thresholds. replace (num <=? 0) with false by lia.
    destruct (rect_cases nY nX input HR) as [->|[[H1 ->]|[H1 H2]]].
    + apply T0.
    + rewrite (EMP _ _ HR). destruct (empty_head nY input HR H1) as (r & ->). destruct (zlen _ =? 0); apply T0.
    + destruct (first_row input nY nX HR H1) as (r0 & -> & L). pose proof HR as [HYl _]. replace (zlen input =? 0) with false by lia.
      cbn [bind]. replace (zlen r0 =? 0) with false by lia. rewrite L, HYl, (all_cells nY nX input HR). cbn [bind]. apply thresholds_tail. exact Hn.
  - intros input nY nX nE num HR Hn. unfold get_neighbourhood_thresholds3. replace (num <=? 0) with false by lia. pose proof HR as [HR2 HRe].
    destruct (rect_cases nY nX input HR2) as [->|[[H1 ->]|[H1 H2]]].
    + apply T0.
    + destruct (empty_head nY input HR2 H1) as (r & ->).
      assert (concat ([] :: r) = []) as ->.
      { destruct HR2 as [_ H]. clear -H. induction r as [|c r IH]; [reflexivity|]. cbn in *. rewrite (zlen_0_nil c) by (apply H; auto). cbn. apply IH. intros x [Hx|Hx]; apply H; auto. }
      destruct (zlen _ =? 0); apply T0.
    + destruct (first_cell input nY nX nE HR H1 H2) as (r0 & c0 & -> & L & Z1 & LE). pose proof HR2 as [HYl HRr].
      replace (zlen input =? 0) with false by lia. cbn [bind]. replace (zlen r0 =? 0) with false by lia. rewrite Z1. cbn [bind].
      assert (ALL : forall row c, In row input -> In c row -> zlen c = zlen c0) by (intros; rewrite LE; eapply HRe; eauto).
      destruct (zlen c0 =? 0) eqn:LZ.
      * assert (concat (concat input) = []) as ->; [|apply T0].
        apply (EMP _ (zlen (concat input))). split; [reflexivity|]. intros c Hc. apply in_concat in Hc as (row & Hr & Hc). rewrite (ALL row c Hr Hc). lia.
      * rewrite L, HYl.
        assert (EC : mapM (fun y => cells <- mapM (fun x => mapM (fun e => get3 input y x e) (zrange 0 (zlen c0))) (zrange 0 nX) ;; Ok (concat cells)) (zrange 0 nY) = Ok (map (@concat val) input)).
        { rewrite (mapM_ext _ (fun y => row <- znth input y ;; Ok (concat row))).
          - rewrite <- HYl, mapM_zrange_znth. apply mapM_ok. reflexivity.
          - intros y Hy. apply in_zrange in Hy. destruct (znth_some input y ltac:(lia)) as (row & Er). rewrite Er. cbn [bind].
            rewrite (mapM_ext _ (fun x => c <- znth row x ;; Ok c)).
            + rewrite <- (HRr row (znth_In _ _ _ Er)), mapM_zrange_znth. rewrite (mapM_ok _ (fun c => c)) by reflexivity. rewrite map_id. reflexivity.
            + intros x Hx. unfold get3, get2. rewrite Er. cbn [bind]. destruct (znth row x) as [c| | |] eqn:Ec.
              2-4: destruct (zrange 0 (zlen c0)) eqn:ZR; [|reflexivity]; exfalso; pose proof (zlen_zrange 0 (zlen c0)) as Q; rewrite ZR in Q; change (zlen (@nil Z)) with 0 in Q; pose proof (zlen_nonneg c0); lia.
              cbn [bind]. rewrite <- (ALL row c (znth_In _ _ _ Er) (znth_In _ _ _ Ec)).
              rewrite (mapM_ext _ (fun i => v <- znth c i ;; Ok v)) by (intros i _; destruct (znth c i); reflexivity).
              rewrite mapM_zrange_znth, (mapM_ok _ (fun v => v)) by reflexivity. rewrite map_id. reflexivity. }
        rewrite EC. cbn [bind].
        assert (concat (map (@concat val) input) = concat (concat input)) as ->.
        { clear. induction input as [|r l IH]; [reflexivity|]. cbn. rewrite concat_app, IH. reflexivity. }
        apply thresholds_tail. exact Hn.
  - intros input num Hn. unfold get_neighbourhood_thresholds. replace (num <=? 0) with true by lia. reflexivity.
  - intros input num Hn. unfold get_neighbourhood_thresholds3. replace (num <=? 0) with true by lia. reflexivity.
Qed.
