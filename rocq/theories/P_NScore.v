(** Proofs for neighbourhood_score. *)
From Verif Require Import Base ListLib QcTac M_Geo M_Near M_Stat M_Neigh M_Grd M_Score M_NScore S_Stat S_Neigh S_Geo S_Near S_Score S_NScore
  P_Geo P_Neighbours P_Grid P_Points P_Near P_Assign P_Stat P_Neigh P_NeighAll P_Score.
Local Open Scope Z_scope.

Lemma qdiv_mul (a n : Qc) : (n <> 0 -> a / n * n = a)%Qc.
Proof. intros H. field. exact H. Qed.
Lemma qinv_pos n : (0 < n -> 0 < / n)%Qc.
Proof.
  intros H. assert (N0 : n <> 0%Qc) by (intros ->; revert H; apply Qcle_not_lt, Qcle_refl).
  destruct (Qclt_le_dec 0 (/ n)) as [|L]; [assumption|]. exfalso.
  assert (K : (n * / n <= 0)%Qc) by (rewrite Qcmult_comm, <- (Qcmult_0_l n); apply Qcmult_le_compat_r; [exact L|apply Qclt_le_weak; exact H]).
  rewrite Qcmult_inv_r in K by exact N0. apply (Qcle_not_lt _ _ K). reflexivity.
Qed.
(** dividing the four numbers by n > 0 does not change the score *)
Lemma score_scaled a b c d n m v : (0 < n)%Qc -> (0 <= a)%Qc -> (0 <= b)%Qc -> (0 <= c)%Qc -> (0 <= d)%Qc ->
  (0 < a + b + c + d)%Qc -> m <> BadMetric ->
  score_of (a / n) (b / n) (c / n) (d / n) m v -> score_of a b c d m v.
Proof.
  intros Hn Ha Hb Hc Hd Hs Hm [H1 H2].
  assert (N0 : n <> 0%Qc) by (intros ->; revert Hn; apply Qcle_not_lt, Qcle_refl).
  assert (S0 : (a + b + c + d)%Qc <> 0%Qc) by (intros E; rewrite E in Hs; revert Hs; apply Qcle_not_lt, Qcle_refl).
  assert (K : exists k, (k <> 0)%Qc /\ score_den a b c d m = (k * score_den (a / n) (b / n) (c / n) (d / n) m)%Qc /\
                       score_num a b c d m = (k * score_num (a / n) (b / n) (c / n) (d / n) m)%Qc).
  { assert (NN : (n * n <> 0)%Qc) by (intros E; apply Qcmult_integral in E; tauto).
    destruct m; cbn [score_den score_num]; unfold expected_hits.
    - exists n. split; [exact N0|]. assert (a / n + b / n + c / n + d / n <> 0)%Qc.
      { replace (a / n + b / n + c / n + d / n)%Qc with ((a + b + c + d) / n)%Qc by (field; exact N0). intros E.
        apply S0. rewrite <- (qdiv_mul (a + b + c + d)%Qc n N0). rewrite E. ring. }
      split; field; tauto.
    - exists n. split; [exact N0|]. split; field; exact N0.
    - exists (n * n)%Qc. split; [exact NN|]. split; field; exact N0.
    - exists n. split; [exact N0|]. split; field; exact N0.
    - exists n. split; [exact N0|]. split; [field; exact N0|].
      assert (qleb (b / n) (c / n) = qleb b c) as ->.
      { assert (QI : (b / n <= c / n <-> b <= c)%Qc); [split; intros H|destruct (qleb_spec (b / n) (c / n)), (qleb_spec b c); tauto].
        - rewrite <- (qdiv_mul b n N0), <- (qdiv_mul c n N0). apply Qcmult_le_compat_r; [exact H|apply Qclt_le_weak; exact Hn].
        - unfold Qcdiv. apply Qcmult_le_compat_r; [exact H|]. apply Qclt_le_weak, qinv_pos. exact Hn. }
      destruct (qleb b c); field; exact N0.
    - exists (n * n)%Qc. split; [exact NN|]. split; field; exact N0.
    - congruence. }
  destruct K as (k & Hk & ED & EN). split.
  - intros D0. apply H1. rewrite ED in D0. apply Qcmult_integral in D0. tauto.
  - intros D0. destruct H2 as (s & -> & E & R). { intros E. apply D0. rewrite ED, E. ring. }
    exists s. split; [reflexivity|]. split; [|exact R]. rewrite ED, EN, <- E. ring.
Qed.
Lemma score_zero m : m <> BadMetric -> exists v, calc_score (Fin 0%Qc) (Fin 0%Qc) (Fin 0%Qc) (Fin 0%Qc) m = Ok v /\ score_of 0 0 0 0 m v.
Proof.
  intros Hm. exists (match m with Bias => fz 1 | _ => MV end). split; [destruct m; try reflexivity; congruence|].
  split; [auto|]. intros K. exfalso. apply K. destruct m; vcalc.
Qed.
Lemma score_any a b c d n m : (0 < n)%Qc -> (0 <= a)%Qc -> (0 <= b)%Qc -> (0 <= c)%Qc -> (0 <= d)%Qc -> m <> BadMetric ->
  exists v, calc_score (Fin (a / n)) (Fin (b / n)) (Fin (c / n)) (Fin (d / n)) m = Ok v /\ score_of a b c d m v.
Proof.
  intros Hn Ha Hb Hc Hd Hm.
  assert (N0 : n <> 0%Qc) by (intros ->; revert Hn; apply Qcle_not_lt, Qcle_refl).
  assert (P : forall x, (0 <= x -> 0 <= x / n)%Qc).
  { intros x Hx. unfold Qcdiv. rewrite <- (Qcmult_0_l (/ n)). apply Qcmult_le_compat_r; [exact Hx|]. apply Qclt_le_weak, qinv_pos. exact Hn. }
  destruct (Qc_eq_dec (a + b + c + d) 0) as [E|NE].
  - assert (a = 0%Qc) by (apply Qcle_antisym; [qlra|exact Ha]). assert (b = 0%Qc) by (apply Qcle_antisym; [qlra|exact Hb]).
    assert (c = 0%Qc) by (apply Qcle_antisym; [qlra|exact Hc]). assert (d = 0%Qc) by (apply Qcle_antisym; [qlra|exact Hd]). subst.
    replace (0 / n)%Qc with 0%Qc by (field; exact N0). apply score_zero. exact Hm.
  - assert (Hs : (0 < a + b + c + d)%Qc).
    { destruct (Qclt_le_dec 0 (a + b + c + d)) as [|L]; [assumption|]. exfalso. apply NE. apply Qcle_antisym; [exact L|qlra]. }
    assert (Hs' : (0 < a / n + b / n + c / n + d / n)%Qc).
    { replace (a / n + b / n + c / n + d / n)%Qc with ((a + b + c + d) / n)%Qc by (field; exact N0). unfold Qcdiv.
      rewrite <- (Qcmult_0_l (/ n)). apply Qcmult_lt_compat_r; [apply qinv_pos; exact Hn|exact Hs]. }
    destruct (c33_all (a / n) (b / n) (c / n) (d / n) m) as (A & B & _); auto.
    destruct (Qc_eq_dec (score_den (a / n) (b / n) (c / n) (d / n) m) 0) as [D|D].
    + eexists. split; [apply A; exact D|]. apply (score_scaled a b c d n); auto. split; [auto|]. intros K; contradiction.
    + destruct (B D) as (s & E & R). exists (Fin s). split; [exact E|]. apply (score_scaled a b c d n); auto. split; [intros K; contradiction|]. intros _. exists s. tauto.
Qed.

(** the contingency fields count the pairs of a cell *)
Definition cnt (t : Qc) (ev fe : bool) (p : list (Qc * Qc)) : Qc := qz (tally t t ev fe p).
Lemma contingency_cell E (t : Qc) rg fcst obs y x r f fe ev : get2 rg y x = Ok r -> get2 fcst y x = Ok f -> cell_value E 1 Mean obs r ->
  contingency rg fcst (Fin t) fe ev y x = Ok (Fin (cnt t ev fe (cell_pair (finites obs) f))).
Proof.
  intros Hr Hf (C1 & C2 & C3). unfold contingency. rewrite Hr. cbn [bind].
  assert (R : r = match finites obs with [] => MV | l => Fin (qmean l) end).
  { destruct obs as [|o obs]; [rewrite C1 by reflexivity; reflexivity|].
    assert (K : stat_of E Mean (finites (o :: obs)) r). { apply C3; [discriminate|]. pose proof (zlen_nonneg obs). rewrite zlen_cons. lia. }
    unfold stat_of in K. destruct (finites (o :: obs)); exact K. }
  unfold cell_pair, cnt. destruct (finites obs) as [|o l]; subst r.
  { cbn. f_equal. }
  cbn [is_valid negb]. rewrite Hf. cbn [bind].
  destruct f as [| | |q]; try reflexivity. cbn [is_valid negb].
  unfold tally, outcome. cbn [filter fst snd]. set (m := qmean (o :: l)).
  change (vltb (Fin t) (Fin q)) with (qltb t q). change (vltb (Fin t) (Fin m)) with (qltb t m). rewrite P_Stat.vleb_Fin.
  assert (qleb m t = negb (qltb t m)) as ->. { destruct (qleb_spec m t), (qltb_spec t m); try reflexivity; exfalso; qlra. }
  destruct (qltb t q), (qltb t m), fe, ev; reflexivity.
Qed.
Lemma tally_nonneg t o f l : 0 <= tally t t o f l.
Proof. unfold tally. apply zlen_nonneg. Qed.
Lemma tally_concat t o f (ls : list (list (Qc * Qc))) : qz (tally t t o f (concat ls)) = qsum (map (cnt t o f) ls).
Proof.
  induction ls as [|p ls IH]; [reflexivity|]. cbn [concat map qsum]. rewrite <- IH. unfold cnt, tally. rewrite filter_app, zlen_app. apply qz_add.
Qed.
Lemma finites_cnt t o f (ls : list (list (Qc * Qc))) : finites (map (fun p => Fin (cnt t o f p)) ls) = map (cnt t o f) ls.
Proof. rewrite <- map_map. apply finites_map_Fin. Qed.
Lemma hood E t o f (pairs : list (list (list (Qc * Qc)))) nY nX h : rect nY nX pairs -> 0 < nY -> 0 < nX -> 0 <= h ->
  exists out, neighbourhood E (map (map (fun p => Fin (cnt t o f p))) pairs) h Mean = Ok out /\ rect nY nX out /\
  forall y x, 0 <= y < nY -> 0 <= x < nX ->
    get2 out y x = Ok (Fin (qz (tally t t o f (concat (around pairs h y x))) / qz (zlen (around pairs h y x)))%Qc).
Proof.
  intros HR HY HX Hh.
  destruct (neigh_all E (map (map (fun p => Fin (cnt t o f p))) pairs) nY nX h Mean) as (out & Ho & _ & HR' & K);
    [apply rect_map; exact HR|lia|lia|lia|unfold stat_listed; tauto|].
  exists out. split; [exact Ho|]. split; [exact HR'|]. intros y x Hy Hx. destruct (K y x Hy Hx) as (v & Hv & S). rewrite Hv. f_equal.
  rewrite around_map, finites_cnt in S. unfold stat_of in S.
  destruct (around pairs h y x) as [|p l] eqn:EA.
  - exfalso. destruct (rect_get2 _ _ _ y x HR Hy Hx) as (w & Hw).
    assert (I : In w (around pairs h y x)) by (apply in_around; exists y, x; repeat split; try lia; exact Hw). rewrite EA in I. destruct I.
  - cbn [map] in S. rewrite S. f_equal. unfold qmean. rewrite tally_concat. f_equal. unfold qlen. cbn [map]. rewrite !zlen_cons, zlen_map. reflexivity.
Qed.
Lemma around_pos {A} nY nX (p : list (list A)) h y x : rect nY nX p -> 0 <= h -> 0 <= y < nY -> 0 <= x < nX -> 0 < zlen (around p h y x).
Proof.
  intros HR Hh Hy Hx. destruct (rect_get2 _ _ _ y x HR Hy Hx) as (w & Hw).
  assert (I : In w (around p h y x)) by (apply in_around; exists y, x; repeat split; try lia; exact Hw).
  destruct (around p h y x) as [|q l]; [destruct I|]. pose proof (zlen_nonneg l). rewrite zlen_cons. lia.
Qed.
Lemma field_ok E t rg fcst nY nX (obs : Z -> Z -> vec) (pairs : list (list (list (Qc * Qc)))) fe ev : 0 <= nY -> 0 <= nX -> rect nY nX fcst -> rect nY nX pairs ->
  (forall y x, 0 <= y < nY -> 0 <= x < nX -> exists v, get2 rg y x = Ok v /\ cell_value E 1 Mean (obs y x) v) ->
  (forall y x f, get2 fcst y x = Ok f -> get2 pairs y x = Ok (cell_pair (finites (obs y x)) f)) ->
  omp (for2 nY nX (init2 nY nX (fz 0)) (contingency rg fcst (Fin t) fe ev)) = Ok (map (map (fun p => Fin (cnt t ev fe p))) pairs).
Proof.
  intros HY HX HF HP HR HC. rewrite for2_init_tab by lia. apply omp_ok. rewrite <- (tab2_cells nY nX) by exact HP.
  apply tab2_ext. intros y x Hy Hx. destruct (HR y x Hy Hx) as (r & Hr & CV). destruct (rect_get2 _ _ _ y x HF Hy Hx) as (f & Hf).
  rewrite (HC y x f Hf). cbn [bind]. eapply contingency_cell; eauto.
Qed.

Lemma c92_score : forall E G t las los ip t' Y X lats lons og fcst ref, geo_ok G -> is_points G t las los ip ->
  is_grid G t' Y X lats lons og -> valid_all t' las -> zlen ref = zlen las -> rect Y X fcst ->
  exists (cell : Z -> Z * Z) (pairs : list (list (list (Qc * Qc)))),
  (forall s la lo, znth las s = Ok la -> znth los s = Ok lo -> closest (grid_at' G t' lats lons) (position G t' la lo) true (cell s)) /\
  rect Y X pairs /\ (forall y x f, get2 fcst y x = Ok f -> get2 pairs y x = Ok (cell_pair (cell_obs cell ref y x) f)) /\
  forall h m thr, 0 < h -> m <> BadMetric ->
  exists out, neighbourhood_score E G og ip fcst ref h m (Fin thr) = Ok out /\
    filtered Y X (fun y x => score_pairs thr (concat (around pairs h y x)) m) out.
Proof.
  intros E G t las los ip t' Y X lats lons og fcst ref HG HI HO HV HL HF. pose proof (is_grid_pos _ _ _ _ _ _ _ HO) as [HY HX].
  destruct (gridding_nearest_g_ok E G t las los ip t' Y X lats lons og ref 1 Mean) as (C & _ & rg & Hrg & HRg & Kg); try assumption; [lia|unfold stat_listed; tauto|].
  set (cell := asg_cell G og ip) in *.
  set (obs := fun y x => pick (fun s => zz_eqb (cell s) (y, x)) ref).
  set (pairs := map (map (fun p => p)) (map (fun y => map (fun x => match get2 fcst y x with Ok f => cell_pair (finites (obs y x)) f | _ => [] end) (zrange 0 X)) (zrange 0 Y))).
  assert (HP : rect Y X pairs) by (apply rect_map, rect_map_zrange; lia).
  assert (HC : forall y x f, get2 fcst y x = Ok f -> get2 pairs y x = Ok (cell_pair (finites (obs y x)) f)).
  { intros y x f Hf. destruct (get2_range _ _ _ _ _ _ HF Hf) as [Hy Hx]. unfold pairs. erewrite get2_map; [reflexivity|].
    rewrite (get2_map_zrange Y X (fun y x => match get2 fcst y x with Ok f => cell_pair (finites (obs y x)) f | _ => [] end)) by lia. rewrite Hf. reflexivity. }
  exists cell, pairs. split; [exact C|]. split; [exact HP|]. split; [exact HC|]. intros h m thr Hh Hm.
  unfold neighbourhood_score. rewrite (compat_grid2_ok _ _ _ _ _ _ _ _ HO HF). cbn [bind negb]. rewrite (proj2 (Z.leb_gt h 0)) by lia.
  destruct (rect_row0 _ _ _ HY HF) as (r0 & Hr0 & L0). rewrite Hr0. cbn [bind]. destruct HF as [LF HF']. rewrite LF, L0.
  assert (HF : rect Y X fcst) by (split; assumption).
  rewrite Hrg. cbn [bind].
  rewrite !(field_ok E thr rg fcst Y X obs pairs) by (try lia; assumption). cbn [bind].
  destruct (hood E thr true true pairs Y X h) as (oa & Ha & Ra & Ka); [assumption|lia|lia|lia|].
  destruct (hood E thr false true pairs Y X h) as (ob & Hb & Rb & Kb); [assumption|lia|lia|lia|].
  destruct (hood E thr true false pairs Y X h) as (oc & Hc & Rc & Kc); [assumption|lia|lia|lia|].
  destruct (hood E thr false false pairs Y X h) as (od & Hd & Rd & Kd); [assumption|lia|lia|lia|].
  rewrite Ha, Hb, Hc, Hd. cbn [bind]. rewrite for2_init_tab by lia.
  match goal with |- context [tab2 _ _ ?f] => destruct (tab2_total Y X f (fun y x v => score_pairs thr (concat (around pairs h y x)) m v)) as (out & Ho & HRo & Ko) end; [lia|lia| |].
  { intros y x Hy Hx. rewrite Ka, Kb, Kc, Kd by lia. cbn [bind]. apply score_any; try exact Hm.
    - change 0%Qc with (qz 0). apply qz_lt. eapply around_pos; eauto; lia.
    - change 0%Qc with (qz 0). apply qz_le. apply tally_nonneg.
    - change 0%Qc with (qz 0). apply qz_le. apply tally_nonneg.
    - change 0%Qc with (qz 0). apply qz_le. apply tally_nonneg.
    - change 0%Qc with (qz 0). apply qz_le. apply tally_nonneg. }
  exists out. split; [apply omp_ok, Ho|]. split; [exact HRo|]. intros y x Hy Hx. destruct (Ko y x Hy Hx) as (v & Hv & _ & P). eauto.
Qed.
Lemma c92_errors : forall E G t las los ip t' Y X lats lons og fcst f0 ref h m thr, is_points G t las los ip ->
  is_grid G t' Y X lats lons og -> znth fcst 0 = Ok f0 ->
  (zlen fcst, zlen f0) <> (Y, X) \/ h <= 0 \/ zlen ref <> zlen las ->
  neighbourhood_score E G og ip fcst ref h m thr = Throw InvalidArgument.
Proof.
  intros E G t las los ip t' Y X lats lons og fcst f0 ref h m thr HI HO H0 H. unfold neighbourhood_score.
  assert (D : (zlen fcst, zlen f0) = (Y, X) \/ (zlen fcst, zlen f0) <> (Y, X)).
  { destruct (Z.eq_dec (zlen fcst) Y), (Z.eq_dec (zlen f0) X); [left; congruence|right; congruence..]. }
  destruct D as [D|D]; [|rewrite (compat_grid2_bad _ _ _ _ _ _ _ _ _ HO H0 D); reflexivity].
  injection D as D1 D2. assert (exists c, compat_grid2 og fcst = Ok c) as [c ->].
  { unfold compat_grid2. rewrite H0. destruct (zlen fcst =? 0); [eauto|]. rewrite (grid_size_ok _ _ _ _ _ _ _ HO). cbn [bind].
    destruct (negb (Y =? zlen fcst)); [eauto|]. cbn [bind]. eauto. }
  cbn [bind]. destruct c; [|reflexivity]. cbn [negb]. destruct (Z.leb_spec h 0); [reflexivity|]. rewrite H0. cbn [bind].
  assert (gridding_nearest_g E G og ip ref 1 Mean = Throw InvalidArgument) as ->; [|reflexivity].
  unfold gridding_nearest_g, compat_points1. rewrite (ip_size _ _ _ _ _ HI).
  destruct (Z.eqb_spec (zlen las) (zlen ref)); [|reflexivity]. exfalso. destruct H as [H|[H|H]]; [congruence|lia|congruence].
Qed.
