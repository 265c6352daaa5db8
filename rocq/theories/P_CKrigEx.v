(** Proofs about the client's kriging calibrator: auxiliary variable, cross validation, training; and witnesses. *)
From Coq Require Import Lia.
From Verif Require Import Base ListLib QcTac M_Stat S_Stat P_Stat M_COpt M_CUtil S_CUtil P_CUtil M_CCal S_CCal P_CCal M_CCal2 S_CCal2 P_CCal2 M_CTree S_CTree P_CTree P_Bilin P_CDistEx P_CGrad M_CKrig S_CKrig P_CKrig.
Local Open Scope Z_scope.

(** ** C218: the auxiliary variable *)
Lemma aux_fold (get : Z -> res val) lo hi l : forall vs, Forall2 (fun tt v => get tt = Ok v) l vs -> forall a n,
  foldM (fun st tt => let '(total, numValid) := st in
      aux <- get tt ;;
      Ok (if cvalid aux then (if vleb (Fin lo) aux && vleb aux (Fin hi) then vadd total (fz 1) else total, numValid + 1) else (total, numValid))) (Fin a, n) l =
  Ok (Fin (a + qlen (filter (fun v => qleb lo v && qleb v hi) (present vs)))%Qc, n + zlen (present vs)).
Proof.
  induction 1 as [|tt v l vs H HF IH]; intros a n; [cbn [foldM present finites filter]; change (present []) with (@nil Qc); cbn [filter]; change (qlen (@nil Qc)) with 0%Qc; change (zlen (@nil Qc)) with 0; rewrite Qcplus_0_r, Z.add_0_r; reflexivity|]. cbn [foldM]. rewrite H. cbn [bind]. rewrite present_cons.
  destruct (cvalid v) eqn:CV.
  - apply cvalid_true in CV as (q & -> & nq). destruct (Qc_eq_dec q missing_number); [contradiction|]. rewrite !vleb_qleb. cbn [filter]. rewrite zlen_cons.
    destruct (qleb lo q && qleb q hi)%bool.
    + change (vadd (Fin a) (fz 1)) with (Fin (a + qz 1)%Qc). rewrite IH. unfold qlen. rewrite zlen_cons. rewrite qz_add. do 2 f_equal; [f_equal; ring|lia].
    + rewrite IH. do 2 f_equal. lia.
  - rewrite IH. destruct v; auto. destruct (Qc_eq_dec q missing_number); auto. rewrite cvalid_Fin in CV by auto. discriminate.
Qed.
Lemma filter_len {A} (p : A -> bool) l : 0 <= zlen (filter p l) <= zlen l.
Proof. induction l as [|a l IH]; [change (filter p []) with (@nil A); change (zlen (@nil A)) with 0; lia|]. cbn [filter]. destruct (p a); rewrite ?zlen_cons in *; lia. Qed.
Lemma share_range vs lo hi : (0 <= share vs lo hi <= 1)%Qc.
Proof.
  unfold share. destruct vs as [|v vs]; [split; [discriminate|apply Qcle_refl]|]. set (l := v :: vs). pose proof (qlen_pos l ltac:(discriminate)) as P. pose proof (filter_len (fun v => qleb lo v && qleb v hi) l) as F.
  split; [apply qle_div_iff|apply qdiv_le_iff]; auto; unfold qlen; rewrite ?Qcmult_0_l, ?Qcmult_1_l; [change 0%Qc with (qz 0)|]; apply qz_le; lia.
Qed.
Lemma c218_weight d fs lo hi w t y x e vs : shaped d fs -> 0 <= t < d_t d -> within d y x e ->
  Forall2 (fun tt v => element fs tt y x e v) (zrange (Z.max 0 (t - w)) (Z.min (d_t d) (t + w + 1))) vs ->
  aux_weight fs (Fin lo) (Fin hi) w (d_t d) t y x e = Ok (Fin (share (present vs) lo hi)) /\ (0 <= share (present vs) lo hi <= 1)%Qc.
Proof.
  intros S Ht W F. split; [|apply share_range]. unfold aux_weight. rewrite (Z.max_comm (t - w) 0). replace (Z.min (d_t d - 1) (t + w) + 1) with (Z.min (d_t d) (t + w + 1)) by lia.
  change (fz 0, 0) with (Fin 0%Qc, 0). rewrite (aux_fold (fun tt => get4 fs tt y x e) lo hi _ vs).
  - cbn [bind]. rewrite Z.add_0_l, Qcplus_0_l. unfold share. destruct (present vs) as [|v l]; [reflexivity|]. rewrite (proj2 (Z.eqb_neq _ _)) by (rewrite zlen_cons; pose proof (zlen_nonneg l); lia).
    change (fz (zlen (v :: l))) with (Fin (qlen (v :: l))). rewrite vdiv_F by (apply qlen_neq0; discriminate). change (fz 0) with (Fin 0%Qc). rewrite vadd_F, Qcplus_0_l. reflexivity.
  - induction F; constructor; auto. apply element_get. auto.
Qed.
Lemma until_step wt e : 0 <= e -> weight_until wt e = (weight_until wt (e - 1) * wt e)%Qc.
Proof.
  intros He. unfold weight_until. rewrite (zrange_snoc 0 (e + 1)) by lia. replace (e + 1 - 1) with e by lia. replace (e - 1 + 1) with e by lia. rewrite map_app, fold_right_app. cbn [map fold_right]. generalize (map wt (zrange 0 e)). intros l.
  induction l as [|q l IH]; cbn [fold_right]; [ring|]. rewrite IH. ring.
Qed.
Lemma c218_members d pw op wt b f y x : of_size d f -> 0 <= y < d_y d -> 0 <= x < d_x d -> 0 <= d_e d -> op = KAdd \/ op = KSubtract -> b <> missing_number ->
  exists f', krig_point pw op (Some (fun e => Ok (Fin (wt e)))) (d_e d) (Fin b) f y x = Ok f' /\ of_size d f' /\
    (forall e q, 0 <= e < d_e d -> f_get f y x e = Ok (Fin q) -> f_get f' y x e = Ok (Fin (corrected op q (b * weight_until wt e)))) /\
    (forall y' x' e, within d y' x' e -> (y', x') <> (y, x) -> f_get f' y' x' e = f_get f y' x' e).
Proof.
  intros S Hy Hx He HO NB. unfold krig_point. rewrite cvalid_Fin by auto.
  destruct (members_ok d pw op (Some (fun e => Ok (Fin (wt e)))) (fun e => Fin (b * weight_until wt (e - 1))%Qc) f y x S Hy Hx He) as (f' & last & EF & Sf & K1 & K2).
  { intros e Ee. cbn [bind]. replace (e + 1 - 1) with e by lia. rewrite (until_step wt e) by lia. destruct HO as [-> | ->]; rewrite vmul_F; do 2 f_equal; ring. }
  exists f'. split; [|split; [auto|split; [|auto]]].
  - replace (Fin (b * weight_until wt (0 - 1))%Qc) with (Fin b) in EF by (f_equal; change (weight_until wt (0 - 1)) with 1%Qc; ring). destruct HO as [-> | ->]; rewrite EF; reflexivity.
  - intros e q Ee Hq. rewrite (K1 e (Fin q) Ee Hq). replace (e + 1 - 1) with e by lia. destruct HO as [-> | ->]; reflexivity.
Qed.

(** ** C219: cross validation, if all stations have influence *)
Lemma zset_map {A} (f : Z -> A) n k v : 0 <= k < n -> zset (map f (zrange 0 n)) k v = Ok (map (fun i => if i =? k then v else f i) (zrange 0 n)).
Proof.
  intros Hk. rewrite zset_Ok by (rewrite zlen_map, zlen_zrange; lia). f_equal. apply znth_ext; [rewrite zlen_lset, !zlen_map; auto|]. intros i Hi. rewrite zlen_lset, zlen_map, zlen_zrange in Hi.
  rewrite znth_lset by (rewrite ?zlen_map, ?zlen_zrange; lia). rewrite !znth_map, znth_zrange by lia. cbn [bind]. replace (0 + i) with i by lia. destruct (Z.eqb_spec i k); auto.
Qed.

Lemma greatest_ok (g : Z -> Qc) n : 0 < n -> (forall i, 0 <= i < n -> (0 < g i)%Qc) ->
  let k := krig_greatest (map (fun i => (i, Fin (g i))) (zrange 0 n)) in 0 <= k < n /\ forall i, 0 <= i < n -> (g i <= g k)%Qc.
Proof.
  intros Hn HP. unfold krig_greatest. rewrite (zrange_cons 0 n) by lia. cbn [map fold_left snd]. change (negb (-999 =? -999)) with false. cbn [andb]. change (0 + 1) with 1.
  assert (K : forall m a best, 0 <= best < a -> a + Z.of_nat m = n -> (forall i, 0 <= i < a -> (g i <= g best)%Qc) ->
    let st := fold_left (fun st s => let '(maxCovar, Imax, ii) := st in if negb (Imax =? -999) && negb (vltb maxCovar (snd s)) then (maxCovar, Imax, ii + 1) else (snd s, ii, ii + 1)) (map (fun i => (i, Fin (g i))) (zrange a n)) (Fin (g best), best, a) in
    0 <= snd (fst st) < n /\ forall i, 0 <= i < n -> (g i <= g (snd (fst st)))%Qc).
  { induction m as [|m IH]; intros a best Hb Ha HB.
    - replace (zrange a n) with (@nil Z) by (symmetry; apply zrange_nil; lia). cbn. split; [lia|]. intros i Hi. apply HB. lia.
    - rewrite (zrange_cons a n) by lia. cbn [map fold_left snd]. replace (best =? -999) with false by lia. cbn [negb andb]. cbn [vltb]. destruct (qltb_spec (g best) (g a)) as [L|L]; cbn [negb].
      + apply IH; [lia|lia|]. intros i Hi. destruct (Z.eq_dec i a) as [->|]; [apply Qcle_refl|]. eapply Qcle_trans; [apply HB; lia|apply Qclt_le_weak; auto].
      + apply IH; [lia|lia|]. intros i Hi. destruct (Z.eq_dec i a) as [->|]; [apply Qcnot_lt_le; auto|apply HB; lia]. }
  apply (K (Z.to_nat (n - 1)) 1 0); [lia|lia|]. intros i Hi. replace i with 0 by lia. apply Qcle_refl.
Qed.
Lemma without_ok M n c k : rect n n M -> 0 <= k < n -> (forall i j, 0 <= i < n -> 0 <= j < n -> get2 M i j = Ok (Fin (reduced c i j))) ->
  exists m, krig_without M k n = Ok m /\ rect n n m /\ forall i j, 0 <= i < n -> 0 <= j < n -> get2 m i j = Ok (Fin (reduced (others k c) i j)).
Proof.
  intros R Hk HM. unfold krig_without.
  destruct (foldM_range (fun m ii => m <- set2 m k ii (fz 0) ;; set2 m ii k (fz 0)) (fun ii m => rect n n m /\ forall i j, 0 <= i < n -> 0 <= j < n -> get2 m i j = Ok (if ((i =? k) && (j <? ii)) || ((j =? k) && (i <? ii)) then fz 0 else Fin (reduced c i j))) 0 n M) as (m & E & Rm & Hm); [lia| | |].
  - split; [auto|]. intros i j Hi Hj. rewrite HM by auto. replace (j <? 0) with false by lia. replace (i <? 0) with false by lia. rewrite !andb_false_r. reflexivity.
  - intros ii m Hi [Rm Hm]. destruct (rect_set2 n n m k ii (fz 0) Rm Hk Hi) as (m1 & E1 & R1 & G1). rewrite E1. cbn [bind]. destruct (rect_set2 n n m1 ii k (fz 0) R1 Hi Hk) as (m2 & E2 & R2 & G2). exists m2. split; [auto|]. split; [auto|].
    intros i j Ii Ij. rewrite G2 by auto. rewrite G1 by auto. rewrite Hm by auto. destruct (Z.eqb_spec i ii), (Z.eqb_spec j k), (Z.eqb_spec i k), (Z.eqb_spec j ii), (Z.ltb_spec j ii), (Z.ltb_spec i ii), (Z.ltb_spec j (ii + 1)), (Z.ltb_spec i (ii + 1)); cbn [andb orb]; try reflexivity; exfalso; lia.
  - rewrite E. cbn [bind]. destruct (rect_set2 n n m k k (fz 1) Rm Hk Hk) as (m1 & E1 & R1 & G1). exists m1. split; [auto|]. split; [auto|].
    intros i j Hi Hj. rewrite G1 by auto. rewrite Hm by auto. unfold reduced, others. replace (j <? n) with true by lia. replace (i <? n) with true by lia.
    destruct (Z.eqb_spec i k), (Z.eqb_spec j k), (Z.eqb_spec i j); cbn [andb orb]; try reflexivity; try (exfalso; lia); change (fz 0) with (Fin 0%Qc); do 2 f_equal; ring.
Qed.
Lemma weights_all inverse N q h : rect N N inverse -> (forall i j, 0 <= i < N -> 0 <= j < N -> get2 inverse i j = Ok (Fin (q i j))) ->
  krig_weights inverse N (map (fun i => (i, Fin (h i))) (zrange 0 N)) = Ok (map (fun i => Fin (dot N (q i) h)) (zrange 0 N)).
Proof.
  intros R H. unfold krig_weights. apply mapM_ok. intros i Hi. apply in_zrange in Hi.
  assert (K : forall l, (forall j, In j l -> 0 <= j < N) -> forall a, foldM (fun w s => v <- get2 inverse i (fst s) ;; Ok (vadd w (vmul v (snd s)))) (Fin a) (map (fun i => (i, Fin (h i))) l) = Ok (Fin (a + qsum (map (fun j => q i j * h j) l))%Qc)).
  { induction l as [|j l IH]; intros HL a; [cbn; do 2 f_equal; ring|]. cbn [map foldM fst snd]. rewrite H by (auto; apply HL; left; auto). cbn [bind]. rewrite vmul_F, vadd_F, IH by (intros; apply HL; right; auto). do 2 f_equal.
    change (qsum (q i j * h j :: map (fun j => q i j * h j) l))%Qc with (q i j * h j + qsum (map (fun j => q i j * h j) l))%Qc. ring. }
  change (fz 0) with (Fin 0%Qc). rewrite K by (intros j Hj; apply in_zrange in Hj; auto). do 2 f_equal. unfold dot. ring.
Qed.
Lemma c219 inv M inverse n c g b : rect n n M -> (forall i j, 0 <= i < n -> 0 <= j < n -> get2 M i j = Ok (Fin (reduced c i j))) -> 0 < n -> (forall i, 0 <= i < n -> (0 < g i)%Qc) -> (forall i, 0 <= i < n -> b i <> missing_number) ->
  (forall k, 0 <= k < n -> inverts inv n (others k c)) ->
  exists k ws, 0 <= k < n /\ (forall i, 0 <= i < n -> (g i <= g k)%Qc) /\ ws k = 0%Qc /\ (forall i, 0 <= i < n -> i <> k -> dot n (reduced c i) ws = g i) /\
    krig_correction inv true M inverse (map (fun i => Fin (b i)) (zrange 0 n)) (map (fun i => (i, Fin (g i))) (zrange 0 n)) = Ok (Fin (dot n b ws)).
Proof.
  intros R HM Hn HP NB IV. destruct (greatest_ok g n Hn HP) as [Hk HG]. set (k := krig_greatest (map (fun i => (i, Fin (g i))) (zrange 0 n))) in *.
  destruct (without_ok M n c k R Hk HM) as (m & EM & Rm & Hm). destruct (IV k Hk m Rm Hm) as (RI & p & q & PQ & UN).
  set (h := fun i => if i =? k then 0%Qc else g i). set (w := fun i => dot n (q i) h).
  assert (SW : forall i, 0 <= i < n -> dot n (reduced (others k c) i) w = h i).
  { intros i Hi. rewrite <- (solve_ok n p q h UN i Hi). unfold dot. apply qsum_ext. intros j Hj. apply in_zrange in Hj. destruct (PQ i j Hi Hj) as [P1 _]. rewrite Hm in P1 by auto. injection P1 as ->. reflexivity. }
  assert (W0 : w k = 0%Qc).
  { transitivity (h k); [|unfold h; rewrite Z.eqb_refl; reflexivity]. rewrite <- (SW k Hk), <- (dot_unit n k w Hk). unfold dot. apply qsum_ext. intros j Hj. f_equal. unfold reduced, others. rewrite Z.eqb_refl. cbn [orb]. destruct (k =? j); ring. }
  exists k, w. split; [auto|]. split; [auto|]. split; [auto|]. split.
  - intros i Hi NE. transitivity (h i); [|unfold h; replace (i =? k) with false by lia; reflexivity]. rewrite <- (SW i Hi). unfold dot. apply qsum_ext. intros j Hj. unfold reduced, others. destruct (Z.eqb_spec i j); auto.
    replace (i =? k) with false by lia. cbn [orb]. destruct (Z.eqb_spec j k) as [->|]; auto. rewrite W0. ring.
  - unfold krig_correction. fold k. rewrite znth_map, znth_zrange by lia. cbn [bind fst]. rewrite zset_map by auto. cbn [bind].
    rewrite !zlen_map, !zlen_zrange. replace (Z.max 0 (n - 0)) with n by lia. rewrite EM. cbn [bind].
    replace (map (fun i => if i =? k then (0 + k, fz 0) else (i, Fin (g i))) (zrange 0 n)) with (map (fun i => (i, Fin (h i))) (zrange 0 n)).
    2:{ apply map_ext. intros i. unfold h. destruct (Z.eqb_spec i k) as [->|]; auto. }
    rewrite (weights_all (inv m) n q h RI) by (intros; apply PQ; auto). cbn [bind]. rewrite (zset_map (fun i => Fin (dot n (q i) h))) by auto. cbn [bind].
    replace (map (fun i => if i =? k then fz 0 else Fin (dot n (q i) h)) (zrange 0 n)) with (map (fun i => Fin (w i)) (zrange 0 n)).
    2:{ apply map_ext. intros i. destruct (Z.eqb_spec i k) as [->|]; auto. rewrite W0. reflexivity. }
    change (fz 0) with (Fin 0%Qc). rewrite (final_ok b w) by (intros i Hi; apply in_zrange in Hi; auto). do 2 f_equal. unfold dot. ring.
Qed.
(** ** C220: no station with coordinates *)
Lemma c220 gc ex pw inv k aux locs pars lats lons elevs d fs : shaped d fs -> rect (d_y d) (d_x d) lats -> rect (d_y d) (d_x d) lons -> rect (d_y d) (d_x d) elevs -> (forall i l, znth locs i = Ok l -> unsettled l) ->
  exists out, kriging_calibrator gc ex pw inv k aux true locs pars lats lons elevs d fs = Ok out /\ shaped d out /\ forall t y x e v, 0 <= t < d_t d -> within d y x e -> element fs t y x e v -> element out t y x e v.
Proof.
  intros SH RA RO RE HU. unfold kriging_calibrator. destruct (valid_found lats lons elevs d RA RO RE) as [->|[-> _]]; cbn [bind negb]; [|eauto].
  destruct (matrix_ok (calc_covar gc ex k) locs (fun _ _ => missing_number)) as (M & -> & _ & _); [intros i j a b _ Ha _; apply c214_missing; left; eapply HU; eauto|]. cbn [bind].
  destruct (table_ok (fun i j => la <- get2 lats i j ;; lo <- get2 lons i j ;; el <- get2 elevs i j ;; krig_near (calc_covar gc ex k) locs {| l_lat := la; l_lon := lo; l_elev := el |}) (fun _ _ s => s = []) (d_y d) (d_x d)) as (tb & -> & HT).
  { intros y x Hy Hx. destruct (rect_get2 _ _ _ _ _ RA Hy Hx) as [la ->]. destruct (rect_get2 _ _ _ _ _ RO Hy Hx) as [lo ->]. destruct (rect_get2 _ _ _ _ _ RE Hy Hx) as [el ->]. cbn [bind]. eexists. split; [apply (near_ok _ _ _ (fun _ => missing_number)); intros i a Ha; apply c214_missing; left; eapply HU; eauto|].
    generalize (zrange 0 (zlen locs)). intros l. induction l; auto. }
  cbn [bind].
  match goal with |- exists out, each_time d ?body = _ /\ _ => destruct (each_time_ok d fs body (fun t g => forall f, znth fs t = Ok f -> forall y x e v, within d y x e -> f_get f y x e = Ok v -> exists w, f_get g y x e = Ok w /\ w = v) SH) as (out & EO & SO & KO) end.
  - intros t Ht. destruct (shaped_nth d fs t SH Ht) as (f & Ef & Sf). rewrite Ef. cbn [bind].
    match goal with |- exists g, foldM (fun f c => let '(i, j) := c in @?body f i j) _ _ = _ /\ _ => destruct (points_all d (fun y x _ v w => w = v) body f) as (f' & EF & Sf' & K); auto end.
    + intros f1 y x S1 Hy Hx. destruct (HT y x Hy Hx) as (s & -> & ->). cbn [bind]. exists f1. split; [reflexivity|]. split; [auto|]. split; [eauto|auto].
    + exists f'. split; [exact EF|]. split; [auto|]. intros f0 Hf0. injection Hf0 as <-. intros y x e v W Hv. eapply K; eauto.
  - exists out. split; [exact EO|]. split; [auto|]. intros t y x e v Ht W (f & Ef & Hv). destruct (KO t Ht) as (g & Hg & K). destruct (K f Ef y x e v W Hv) as (w & Hw & ->). exists g. auto.
Qed.

(** ** C221: training *)
Lemma train_fold_kriging E data : forall a b n, foldM (fun st x => let '(totalObs, totalFcst, counter) := st in
      mean <- calculate_stat E (snd x) CMean (fz 0) ;;
      Ok (if cvalid (fst x) && cvalid mean then (vadd totalObs (fst x), vadd totalFcst mean, counter + 1) else (totalObs, totalFcst, counter))) (Fin a, Fin b, n) data =
  Ok (Fin (a + s_o (training_pairs data)), Fin (b + s_f (training_pairs data)), (n + zlen (training_pairs data))%Z)%Qc.
Proof.
  assert (Z0 : forall a b n, @Ok (val * val * Z) (Fin a, Fin b, n) = Ok (Fin (a + s_o []), Fin (b + s_f []), (n + zlen (@nil (Qc * Qc)))%Z)%Qc).
  { intros. unfold s_o, s_f. cbn [map qsum]. rewrite !Qcplus_0_r. change (zlen []) with 0. rewrite Z.add_0_r. reflexivity. }
  induction data as [|x data IH]; intros a b n; [apply Z0|]. cbn [foldM training_pairs flat_map]. fold (training_pairs data). destruct (sums_app (training_pair x) (training_pairs data)) as (-> & -> & _ & _). rewrite zlen_app.
  assert (ST : forall a b n, (mean <- calculate_stat E (snd x) CMean (fz 0) ;; Ok (if cvalid (fst x) && cvalid mean then (vadd (Fin a) (fst x), vadd (Fin b) mean, n + 1) else (Fin a, Fin b, n))) =
    Ok (Fin (a + s_o (training_pair x)), Fin (b + s_f (training_pair x)), (n + zlen (training_pair x))%Z)%Qc).
  { clear - Z0. intros a b n. destruct x as [obs ens]. cbn [fst snd]. destruct (stat_spec E ens CMean (qz 0)) as (w & Ew & S1 & S2); [discriminate|]. change (fz 0) with (Fin (qz 0)). rewrite Ew. cbn [bind].
    unfold training_pair. cbn [fst snd]. destruct (cvalid obs) eqn:C; cbn [andb].
    2:{ rewrite present_cons. replace (match obs with Fin q => _ | _ => _ end) with (@nil Qc); [apply Z0|]. destruct obs; auto. destruct (Qc_eq_dec q missing_number); auto. rewrite cvalid_Fin in C by auto. discriminate. }
    apply cvalid_true in C as (o & -> & no). rewrite present_cons. destruct (Qc_eq_dec o missing_number); [contradiction|]. change (present []) with (@nil Qc).
    destruct (list_eq_dec Qc_eq_dec (present ens) []) as [N|N].
    { rewrite (S1 N). change (cvalid (Fin missing_number)) with false. apply Z0. }
    destruct (S2 N) as (r & -> & ->). destruct (Qc_eq_dec (qmean (present ens)) missing_number) as [M|M].
    { rewrite M. change (cvalid (Fin missing_number)) with false. apply Z0. }
    rewrite cvalid_Fin by auto. unfold s_o, s_f. cbn [map qsum fst snd vadd]. rewrite !Qcplus_0_r. reflexivity. }
  rewrite ST. cbn [bind]. rewrite IH. rewrite <- !Qcplus_assoc, Z.add_assoc. reflexivity.
Qed.
Lemma sum_const_add (l : list (Qc * Qc)) c : qsum (map (fun p => snd p + c)%Qc l) = (s_f l + qlen l * c)%Qc.
Proof.
  unfold s_f. induction l as [|p l IH]; [change (qlen (@nil (Qc * Qc))) with 0%Qc; cbn; ring|]. cbn [map qsum]. rewrite IH. unfold qlen. rewrite zlen_cons, qz_add. change (qz 1) with 1%Qc. ring.
Qed.
Lemma c221 E op data : let l := training_pairs data in l <> [] -> (op = KMultiply \/ op = KDivide -> qsum (map snd l) <> 0%Qc /\ qsum (map fst l) <> 0%Qc) ->
  exists b, kriging_train E op data = Ok [Fin b] /\ qsum (map (fun p => adjusted op (snd p) b) l) = qsum (map fst l).
Proof.
  intros l HN HS. unfold kriging_train. change (fz 0, fz 0, 0) with (Fin 0%Qc, Fin 0%Qc, 0). rewrite train_fold_kriging. cbn [bind]. rewrite !Qcplus_0_l, Z.add_0_l. fold l.
  assert (LP : 0 < zlen l) by (destruct l; [congruence|]; rewrite zlen_cons; pose proof (zlen_nonneg l); lia). replace (zlen l <=? 0) with false by lia. change (fz (zlen l)) with (Fin (qlen l)).
  pose proof (qlen_neq0 l HN) as QL.
  change (qsum (map snd l)) with (s_f l) in *. change (qsum (map fst l)) with (s_o l) in *.
  destruct op; cbn [adjusted].
  - rewrite vsub_F, vdiv_F by auto. eexists. split; [reflexivity|]. rewrite sum_const_add. field. auto.
  - rewrite vsub_F, vdiv_F by auto. eexists. split; [reflexivity|]. set (c := ((s_f l - s_o l) / qlen l)%Qc). transitivity (qsum (map (fun p => snd p + - c)%Qc l)); [reflexivity|]. rewrite sum_const_add. unfold c. field. auto.
  - destruct (HS (or_introl eq_refl)). rewrite vdiv_F by auto. eexists. split; [reflexivity|]. rewrite (qsum_scale snd). fold (s_f l). change (qsum (map snd l)) with (s_f l). field. auto.
  - destruct (HS (or_intror eq_refl)). rewrite vdiv_F by auto. eexists. split; [reflexivity|]. set (c := (s_f l / s_o l)%Qc). transitivity (qsum (map (fun p => snd p * / c)%Qc l)); [reflexivity|]. rewrite (qsum_scale snd). change (qsum (map snd l)) with (s_f l). unfold c. field. auto.
Qed.
Lemma c221_nothing E op data : training_pairs data = [] -> kriging_train E op data = Ok [Fin 0%Qc].
Proof. intros HN. unfold kriging_train. change (fz 0, fz 0, 0) with (Fin 0%Qc, Fin 0%Qc, 0). rewrite train_fold_kriging, HN. reflexivity. Qed.
(** ** Witnesses: distance along the meridian *)
Definition flat (la lo la' lo' : Qc) : Qc := apart la la'.
Definition always (x : Qc) : Qc := 1%Qc.
Lemma flat_metric : metric_like flat.
Proof. split; [intros; apply apart_nonneg|]. split; [intros; apply apart_sym|]. intros la lo. apply apart_self. Qed.
Lemma always_exponential : exponential always.
Proof. split; [reflexivity|]. split; [reflexivity|]. intros. apply Qcle_refl. Qed.
Definition within10 (op : kop) (cross : bool) : kriging := {| k_efold := fz 10; k_radius := fz 10; k_elev := CMV; k_cressman := true; k_op := op; k_cross := cross |}.
Lemma within10_options op cross : options (within10 op cross) (qz 10) (qz 10) None.
Proof. repeat split; try reflexivity. discriminate. Qed.
Definition at_lat (n : Z) : location := {| l_lat := fz n; l_lon := fz 0; l_elev := fz 0 |}.
Lemma at_lat_settled n : (0 <=? n) && (n <=? 90) = true -> settled (at_lat n) (qz n) (qz 0) (qz 0).
Proof.
  intros H. repeat split; try reflexivity; try (apply qz_le; lia); intros K; apply qz_inj in K; lia.
Qed.
Lemma covary_lats n m c op : (0 <=? n) && (n <=? 90) = true -> (0 <=? m) && (m <=? 90) = true -> c = covariance true always (qz 10) (qz 10) None (apart (qz n) (qz m)) 0 ->
  covary flat (covariance (k_cressman (within10 op false)) always (qz 10) (qz 10) None) (at_lat n) (at_lat m) c.
Proof. intros Hn Hm ->. exists (qz n), (qz 0), (qz 0), (qz m), (qz 0), (qz 0). split; [apply at_lat_settled; auto|]. split; [apply at_lat_settled; auto|]. f_equal. Qed.
Lemma rect11 v : rect 1 1 [[v : val]].
Proof. split; [reflexivity|intros r [<-|[]]; reflexivity]. Qed.
Lemma one_point la lo el y x l : located_at [[la]] [[lo]] [[el]] y x l -> l = {| l_lat := la; l_lon := lo; l_elev := el |}.
Proof.
  intros (A & B & C). pose proof (get2_range _ _ _ _ _ _ (rect11 la) A) as R.
  assert (y = 0) by lia. assert (x = 0) by lia. subst. injection A as A. injection B as B. injection C as C. destruct l. cbn in *. congruence.
Qed.
Definition alone : list vec -> list vec := fun _ => [[fz 1]].
Lemma one_case op par b e vs : station_bias op [par] b -> b <> missing_number -> shaped (dims2 1 e 1) [row 1 e vs] ->
  kriging_case flat always alone (within10 op false) [at_lat 10] (fun _ _ => [par]) [[fz 10]] [[fz 0]] [[fz 0]] (dims2 1 e 1) [row 1 e vs] (fun _ _ => 1%Qc) (fun _ _ _ => 1%Qc) (fun _ _ => b).
Proof.
  intros SB NB SH. split; [apply flat_metric|]. split; [apply always_exponential|]. split; [auto|]. do 3 (split; [apply rect11|]). split; [reflexivity|]. split; [|split].
  - exists (qz 10), (qz 10), None. split; [apply within10_options|].
    assert (C : covary flat (covariance (k_cressman (within10 op false)) always (qz 10) (qz 10) None) (at_lat 10) (at_lat 10) 1) by (apply covary_lats; auto; apply Qc_is_canon; vm_compute; reflexivity).
    assert (L : forall i l, znth [at_lat 10] i = Ok l -> l = at_lat 10) by (intros i l H; apply znth_In in H as [<-|[]]; auto). split.
    + intros i j l l' Hl Hl'. apply L in Hl as ->. apply L in Hl' as ->. exact C.
    + intros y x l HL. right. intros i a Ha. apply L in Ha as ->. apply one_point in HL as ->. exact C.
  - intros M RM HM. split; [apply rect11|]. exists (reduced (fun _ _ => 1%Qc)), (fun _ _ => 1%Qc). change (zlen [at_lat 10]) with 1. split.
    + intros i j Hi Hj. split; [apply HM; auto|]. assert (i = 0) by lia. assert (j = 0) by lia. subst. reflexivity.
    + intros i j Hi Hj. assert (i = 0) by lia. assert (j = 0) by lia. subst. apply Qc_is_canon. vm_compute. reflexivity.
  - intros t i l Ht Hl. auto.
Qed.
Ltac run := vm_compute; repeat match goal with |- Ok _ = Ok _ => f_equal | |- Fin _ = Fin _ => f_equal | |- @eq (list _) (_ :: _) (_ :: _) => f_equal | |- @eq field _ _ => f_equal | |- @eq Qc _ _ => apply Qc_is_canon; vm_compute; reflexivity | |- _ => reflexivity end.
Lemma dot_one (a b : Z -> Qc) : dot 1 a b = (a 0%Z * b 0%Z)%Qc.
Proof. unfold dot. change (zrange 0 1) with [0]. cbn [map qsum]. ring. Qed.
Lemma c215_divide : exists D exq pw inv k locs pars lats lons elevs d fs c g b out t y x e q w, kriging_case D exq inv k locs pars lats lons elevs d fs c g b /\ k_op k = KDivide /\
  kriging_calibrator (lift4 D) (on_numbers exq) pw inv k None true locs pars lats lons elevs d fs = Ok out /\ 0 <= t < d_t d /\ within d y x e /\ element fs t y x e (Fin q) /\ element out t y x e w /\ ~ kriged (k_op k) (zlen locs) c (g y x) (b t) q w.
Proof.
  exists flat, always, (fun _ w => w), alone, (within10 KDivide false), [at_lat 10], (fun _ _ => [fz 2]), [[fz 10]], [[fz 0]], [[fz 0]], (dims2 1 1 1), [row 1 1 [fz 8]], (fun _ _ => 1%Qc), (fun _ _ _ => 1%Qc), (fun _ _ => 1%Qc), [row 1 1 [PInf]], 0, 0, 0, 0, (qz 8), PInf.
  split; [apply one_case; [right; exists (qz 2), []; split; [reflexivity|]; split; [discriminate|apply Qc_is_canon; reflexivity]|discriminate|apply row_shaped; reflexivity]|]. split; [reflexivity|]. split; [run|]. split; [cbn; lia|]. split; [repeat split; cbn; lia|].
  split; [eexists; split; reflexivity|]. split; [eexists; split; reflexivity|]. intros (_ & ws & SO & K). change (zlen [at_lat 10]) with 1 in *. specialize (SO 0 ltac:(lia)). rewrite dot_one in SO. change (reduced (fun _ _ => 1%Qc) 0 0) with 1%Qc in SO. rewrite Qcmult_1_l in SO.
  rewrite dot_one, SO in K. discriminate K; [exists 0; split; [lia|discriminate]|discriminate].
Qed.
Lemma c215_missing : exists D exq pw inv k locs pars lats lons elevs d fs c g b out t y x e v w, kriging_case D exq inv k locs pars lats lons elevs d fs c g b /\ k_op k = KAdd /\
  kriging_calibrator (lift4 D) (on_numbers exq) pw inv k None true locs pars lats lons elevs d fs = Ok out /\ 0 <= t < d_t d /\ within d y x e /\ element fs t y x e v /\ missing v /\ element out t y x e w /\ ~ missing w.
Proof.
  exists flat, always, (fun _ w => w), alone, (within10 KAdd false), [at_lat 10], (fun _ _ => [fz 2]), [[fz 10]], [[fz 0]], [[fz 0]], (dims2 1 1 1), [row 1 1 [CMV]], (fun _ _ => 1%Qc), (fun _ _ _ => 1%Qc), (fun _ _ => qz 2), [row 1 1 [fz (-997)]], 0, 0, 0, 0, CMV, (fz (-997)).
  split; [apply one_case; [right; exists (qz 2), []; split; [reflexivity|]; split; [discriminate|reflexivity]|discriminate|apply row_shaped; reflexivity]|]. split; [reflexivity|]. split; [run|]. split; [cbn; lia|]. split; [repeat split; cbn; lia|].
  split; [eexists; split; reflexivity|]. split; [reflexivity|]. split; [eexists; split; reflexivity|]. discriminate.
Qed.
Lemma c216_divide : exists D exq pw inv k locs pars lats lons elevs d fs c g b out t y x e v w, kriging_case D exq inv k locs pars lats lons elevs d fs c g b /\ k_op k = KDivide /\ (forall t i, b t i = 0%Qc) /\
  kriging_calibrator (lift4 D) (on_numbers exq) pw inv k None true locs pars lats lons elevs d fs = Ok out /\ 0 <= t < d_t d /\ within d y x e /\ element fs t y x e v /\ element out t y x e w /\ v = fz 8 /\ w = fz (-8).
Proof.
  exists flat, always, (fun _ w => w), alone, (within10 KDivide false), [at_lat 10], (fun _ _ => [fz 1]), [[fz 10]], [[fz 0]], [[fz 0]], (dims2 1 1 1), [row 1 1 [fz 8]], (fun _ _ => 1%Qc), (fun _ _ _ => 1%Qc), (fun _ _ => 0%Qc), [row 1 1 [fz (-8)]], 0, 0, 0, 0, (fz 8), (fz (-8)).
  split; [apply one_case; [right; exists (qz 1), []; split; [reflexivity|]; split; [discriminate|apply Qc_is_canon; reflexivity]|discriminate|apply row_shaped; reflexivity]|]. split; [reflexivity|]. split; [reflexivity|]. split; [run|]. split; [cbn; lia|]. split; [repeat split; cbn; lia|].
  split; [eexists; split; reflexivity|]. split; [eexists; split; reflexivity|]. auto.
Qed.
(** two stations, 5 apart; the grid point is at the first *)
Definition pair_inverse : list vec -> list vec := fun _ => [[fq (1562500 # 1176859); fq (-776250 # 1176859)]; [fq (-776250 # 1176859); fq (1562500 # 1176859)]].
Definition pair_cov (i j : Z) : Qc := if i =? j then 1%Qc else Q2Qc (3 # 5).
Definition pair_bias (l : location) : vec := if veqb (l_lat l) (fz 10) then [fz 5] else [fz 0].
Lemma pair_index {A} (a b l : A) i : znth [a; b] i = Ok l -> i = 0 /\ l = a \/ i = 1 /\ l = b.
Proof. intros H. pose proof (znth_range _ _ _ H) as R. change (zlen [a; b]) with 2 in R. assert (i = 0 \/ i = 1) as [-> | ->] by lia; injection H as <-; auto. Qed.
Lemma pair_case : kriging_case flat always pair_inverse (within10 KAdd false) [at_lat 10; at_lat 15] (fun _ => pair_bias) [[fz 10]] [[fz 0]] [[fz 0]] (dims2 1 1 1) [row 1 1 [fz 8]] pair_cov (fun _ _ i => if i =? 0 then 1%Qc else Q2Qc (3 # 5)) (fun _ i => if i =? 0 then qz 5 else 0%Qc).
Proof.
  split; [apply flat_metric|]. split; [apply always_exponential|]. split; [apply row_shaped; reflexivity|]. do 3 (split; [apply rect11|]). split; [reflexivity|]. split; [|split].
  - exists (qz 10), (qz 10), None. split; [apply within10_options|]. split.
    + intros i j l l' Hl Hl'. apply pair_index in Hl as [[-> ->]|[-> ->]]; apply pair_index in Hl' as [[-> ->]|[-> ->]]; apply covary_lats; auto; apply Qc_is_canon; vm_compute; reflexivity.
    + intros y x l HL. right. intros i a Ha. apply one_point in HL as ->. change {| l_lat := fz 10; l_lon := fz 0; l_elev := fz 0 |} with (at_lat 10). apply pair_index in Ha as [[-> ->]|[-> ->]]; apply covary_lats; auto; apply Qc_is_canon; vm_compute; reflexivity.
  - intros M RM HM. split; [split; [reflexivity|intros r [<-|[<-|[]]]; reflexivity]|]. exists (reduced pair_cov), (fun i j => if i =? j then Q2Qc (1562500 # 1176859) else Q2Qc (-776250 # 1176859)). change (zlen [at_lat 10; at_lat 15]) with 2 in *. split.
    + intros i j Hi Hj. split; [apply HM; auto|]. assert (i = 0 \/ i = 1) as [-> | ->] by lia; assert (j = 0 \/ j = 1) as [-> | ->] by lia; reflexivity.
    + intros i j Hi Hj. assert (i = 0 \/ i = 1) as [-> | ->] by lia; assert (j = 0 \/ j = 1) as [-> | ->] by lia; apply Qc_is_canon; vm_compute; reflexivity.
  - intros t i l Ht Hl. apply pair_index in Hl as [[-> ->]|[-> ->]]; (split; [|discriminate]); right; [exists (qz 5), []|exists (qz 0), []]; (split; [reflexivity|split; [discriminate|reflexivity]]).
Qed.
Lemma c217_refuted : exists D exq pw inv k locs pars lats lons elevs d fs c g b out i l t y x e q q', kriging_case D exq inv k locs pars lats lons elevs d fs c g b /\ k_op k = KAdd /\
  kriging_calibrator (lift4 D) (on_numbers exq) pw inv k None true locs pars lats lons elevs d fs = Ok out /\ 0 <= t < d_t d /\ within d y x e /\ znth locs i = Ok l /\ located_at lats lons elevs y x l /\
  element fs t y x e (Fin q) /\ element out t y x e (Fin q') /\ q' <> (q + b t i)%Qc.
Proof.
  exists flat, always, (fun _ w => w), pair_inverse, (within10 KAdd false), [at_lat 10; at_lat 15], (fun _ => pair_bias), [[fz 10]], [[fz 0]], [[fz 0]], (dims2 1 1 1), [row 1 1 [fz 8]], pair_cov, (fun _ _ i => if i =? 0 then 1%Qc else Q2Qc (3 # 5)), (fun _ i => if i =? 0 then qz 5 else 0%Qc),
    [row 1 1 [fq (8 * 1176859 + 5 * 1096750 # 1176859)]], 0, (at_lat 10), 0, 0, 0, 0, (qz 8), (Q2Qc (8 * 1176859 + 5 * 1096750 # 1176859)).
  split; [apply pair_case|]. split; [reflexivity|]. split; [run|]. split; [cbn; lia|]. split; [repeat split; cbn; lia|]. split; [reflexivity|]. split; [repeat split; reflexivity|]. split; [eexists; split; reflexivity|]. split; [eexists; split; reflexivity|]. discriminate.
Qed.
(** the weights of earlier members count too *)
Lemma c218_refuted : exists D exq pw inv k locs pars lats lons elevs d fs c g b fsa out, kriging_case D exq inv k locs pars lats lons elevs d fs c g b /\ k_op k = KAdd /\ shaped d fsa /\
  kriging_calibrator (lift4 D) (on_numbers exq) pw inv k (Some (fsa, fz 0, fz 1, 0)) true locs pars lats lons elevs d fs = Ok out /\
  aux_weight fsa (fz 0) (fz 1) 0 1 0 0 0 1 = Ok (fz 1) /\ b 0 0 = qz 2 /\ g 0 0 0 = 1%Qc /\ element fs 0 0 0 1 (fz 8) /\ element out 0 0 0 1 (fz 8).
Proof.
  exists flat, always, (fun _ w => w), alone, (within10 KAdd false), [at_lat 10], (fun _ _ => [fz 2]), [[fz 10]], [[fz 0]], [[fz 0]], (dims2 1 2 1), [row 1 2 [fz 8; fz 8]], (fun _ _ => 1%Qc), (fun _ _ _ => 1%Qc), (fun _ _ => qz 2), [row 1 2 [fz 5; fz 0]], [row 1 2 [fz 8; fz 8]].
  split; [apply one_case; [right; exists (qz 2), []; split; [reflexivity|]; split; [discriminate|reflexivity]|discriminate|apply row_shaped; reflexivity]|]. split; [reflexivity|]. split; [apply row_shaped; reflexivity|]. split; [run|]. split; [run|]. do 2 (split; [reflexivity|]). split; eexists; split; reflexivity.
Qed.
(** cross validation: three stations, the first far away; the grid point is at the second, whose bias counts *)
Definition three_inverse : list vec -> list vec := fun _ => [[fz 1; fz 0; fz 0]; [fz 0; fq (1562500 # 1176859); fq (-776250 # 1176859)]; [fz 0; fq (-776250 # 1176859); fq (1562500 # 1176859)]].
Definition three : list location := [at_lat 60; at_lat 10; at_lat 15].
Lemma c219_refuted : exists D exq pw inv k locs pars lats lons elevs d fs m out n l, metric_like D /\ exponential exq /\ k_cross k = true /\ k_op k = KAdd /\ shaped d fs /\
  krig_matrix (calc_covar (lift4 D) (on_numbers exq) k) locs = Ok m /\ inverse_of (zlen locs) m (inv m) /\
  znth locs n = Ok l /\ located_at lats lons elevs 0 0 l /\ (forall t i a, i <> n -> znth locs i = Ok a -> pars t a = [fz 0]) /\
  kriging_calibrator (lift4 D) (on_numbers exq) pw inv k None true locs pars lats lons elevs d fs = Ok out /\ element fs 0 0 0 0 (fz 8) /\ ~ element out 0 0 0 0 (fz 8).
Proof.
  exists flat, always, (fun _ w => w), three_inverse, (within10 KAdd true), three, (fun _ => pair_bias), [[fz 10]], [[fz 0]], [[fz 0]], (dims2 1 1 1), [row 1 1 [fz 8]].
  eexists. exists [row 1 1 [fq (8 * 1176859 - 5 * 776250 * 3 / 5 # 1176859)]], 1, (at_lat 10).
  split; [apply flat_metric|]. split; [apply always_exponential|]. split; [reflexivity|]. split; [reflexivity|]. split; [apply row_shaped; reflexivity|]. split; [vm_compute; reflexivity|]. split.
  { split; [split; [reflexivity|intros r [<-|[<-|[<-|[]]]]; reflexivity]|]. exists (reduced (fun i j => if (i =? 0) || (j =? 0) then 0%Qc else Q2Qc (3 # 5))), (fun i j => if (i =? 0) || (j =? 0) then (if i =? j then 1%Qc else 0%Qc) else if i =? j then Q2Qc (1562500 # 1176859) else Q2Qc (-776250 # 1176859)).
    change (zlen three) with 3. split; intros i j Hi Hj; assert (i = 0 \/ i = 1 \/ i = 2) as [-> | [-> | ->]] by lia; assert (j = 0 \/ j = 1 \/ j = 2) as [-> | [-> | ->]] by lia; try (apply Qc_is_canon; vm_compute; reflexivity); (split; [|reflexivity]); run. }
  split; [reflexivity|]. split; [repeat split; reflexivity|]. split.
  { intros t i a NE Ha. pose proof (znth_range _ _ _ Ha) as R. change (zlen three) with 3 in R. assert (i = 0 \/ i = 2) as [-> | ->] by lia; injection Ha as <-; reflexivity. }
  split; [run|]. split; [eexists; split; reflexivity|]. intros (f & Hf & H). injection Hf as <-. injection H as H. discriminate H.
Qed.
(** a station without elevation, and with a bias of 0, takes most of the correction away *)
Definition unplaced : location := {| l_lat := fz 10; l_lon := fz 0; l_elev := CMV |}.
Definition unplaced_inverse : list vec -> list vec := fun m => if zlen m =? 1 then [[fz 1]] else [[fq (-62500 # 42763282349); fq (-51698250 # 42763282349)]; [fq (-51698250 # 42763282349); fq (-62500 # 42763282349)]].
Definition placed_bias (l : location) : vec := if cvalid (l_elev l) then [fz 5] else [fz 0].
Lemma c220_refuted : exists D exq pw inv k l l' pars lats lons elevs d fs m out out', metric_like D /\ exponential exq /\ k_cross k = false /\ k_op k = KAdd /\ shaped d fs /\ unsettled l' /\
  krig_matrix (calc_covar (lift4 D) (on_numbers exq) k) [l; l'] = Ok m /\ inverse_of 2 m (inv m) /\
  kriging_calibrator (lift4 D) (on_numbers exq) pw inv k None true [l] pars lats lons elevs d fs = Ok out /\ element out 0 0 0 0 (fz 13) /\
  kriging_calibrator (lift4 D) (on_numbers exq) pw inv k None true [l; l'] pars lats lons elevs d fs = Ok out' /\ ~ element out' 0 0 0 0 (fz 13).
Proof.
  exists flat, always, (fun _ w => w), unplaced_inverse, (within10 KAdd false), (at_lat 10), unplaced, (fun _ => placed_bias), [[fz 10]], [[fz 0]], [[fz 0]], (dims2 1 1 1), [row 1 1 [fz 8]].
  eexists. exists [row 1 1 [fz 13]], [row 1 1 [fq (8 * 42763282349 - 5 * 62500 # 42763282349)]].
  split; [apply flat_metric|]. split; [apply always_exponential|]. split; [reflexivity|]. split; [reflexivity|]. split; [apply row_shaped; reflexivity|]. split; [right; right; reflexivity|]. split; [vm_compute; reflexivity|]. split.
  { split; [split; [reflexivity|intros r [<-|[<-|[]]]; reflexivity]|]. exists (reduced (fun i j => qz (-999))), (fun i j => if i =? j then Q2Qc (-62500 # 42763282349) else Q2Qc (-51698250 # 42763282349)).
    split; intros i j Hi Hj; assert (i = 0 \/ i = 1) as [-> | ->] by lia; assert (j = 0 \/ j = 1) as [-> | ->] by lia; try (apply Qc_is_canon; vm_compute; reflexivity); (split; [|reflexivity]); run. }
  split; [run|]. split; [eexists; split; reflexivity|]. split; [run|]. intros (f & Hf & H). injection Hf as <-. injection H as H. discriminate H.
Qed.
Lemma c221_refuted : exists E data b f, training_pairs data = [] /\ kriging_train E KMultiply data = Ok [Fin b] /\ adjusted KMultiply f b <> f.
Proof. exists E0, [], 0%Qc, 1%Qc. split; [reflexivity|]. split; [apply c221_nothing; reflexivity|discriminate]. Qed.
