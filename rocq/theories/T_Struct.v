(** Property theorems C53 to C56 and C74 to C78. *)
From Coq Require Import Lra.
From Verif Require Import QcTac Base RBase P_RBase M_Geo S_Geo M_Struct S_Struct P_Struct P_StructA P_StructB P_StructC.

(** C53: Barnes and power law *)
Theorem C53_barnes_powerlaw : forall (G : geo) k h v w hmax, k = Barnes \/ k = Powerlaw ->
  (0 < h)%Qc -> (0 <= v)%Qc -> (0 <= w)%Qc -> cutoff_ok hmax ->
  exists S, mk_base k (Fin h) (Fin v) (Fin w) hmax = Ok S /\
  (forall p, has_place p -> corr G S p p = Ok (RF 1)) /\
  (forall p q d, apart p q d -> exists c, corr G S p q = Ok (RF c) /\ corr G S q p = Ok (RF c) /\ (0 <= c <= 1)%R) /\
  (forall p q p' q' d d' c c', apart p q d -> apart p' q' d' -> (d <= d')%R ->
     no_larger (diff (p_elev p) (p_elev q)) (diff (p_elev p') (p_elev q')) ->
     no_larger (diff (p_laf p) (p_laf q)) (diff (p_laf p') (p_laf q')) ->
     corr G S p q = Ok (RF c) -> corr G S p' q' = Ok (RF c') -> (c' <= c)%R) /\
  exists L, (0 <= L)%R /\ forall p q d, apart p q d ->
     corr G S p q = Ok (RF (if Rlt_dec L d then 0
                            else shape k (d / qr h) * factor k (qr v) (diff (p_elev p) (p_elev q))
                                                    * factor k (qr w) (diff (p_laf p) (p_laf q)))).
Proof. exact c53_all. Qed.
Print Assumptions C53_barnes_powerlaw.
Example C53_example : exists S, mk_base Barnes (fz 1000) (fz 100) (fz 0) (fz 3000) = Ok S /\ cutoff_ok (fz 3000) /\
  apart (pt (fz 0) (fz 200) (fz 1)) (pt (fz 1000) (fz 100) (fz 0)) 1000 /\
  corr G0 S (pt (fz 0) (fz 200) (fz 1)) (pt (fz 1000) (fz 100) (fz 0)) = Ok (RF (exp (- (1 / 2)) * exp (- (1 / 2)) * 1)).
Proof.
  assert (C : cutoff_ok (fz 3000)) by (right; eexists; split; [reflexivity|]; apply qz_nonneg; lia).
  exists (base_of Barnes (qz 1000) (qz 100) (qz 0) (fz 3000)).
  split; [apply mk_base_ok; auto; apply qz_nonneg; lia|]. split; [exact C|].
  pose proof (pt_apart 0 1000 (fz 200) (fz 1) (fz 100) (fz 0) ltac:(lia)) as A. split; [exact A|].
  rewrite (corr_formula G0 Barnes (qz 1000) (qz 100) (qz 0) (fz 3000) 3000 1000 _ _ ltac:(discriminate)); [|unfold fz; cbn [v2r]; rewrite !qr_z; apply loc_barnes_max; lra|exact A].
  destruct (Rlt_dec 3000 1000); [lra|]. unfold corr3. cbn [pt p_elev p_laf diff fz]. unfold fz. cbn [diff]. rewrite !qr_z. cbn [factor].
  destruct (Req_EM_T 1000 0); [lra|]. destruct (Req_EM_T 100 0); [lra|]. destruct (Req_EM_T 0 0); [|lra]. cbn [shape].
  do 5 f_equal; field.
Qed.

(** C54: Cressman, Soar and Toar *)
Theorem C54_vertical_symmetry_refuted :
  (exists S p q, mk_cressman (fz 1000) (fz 100) (fz 0) = Ok S /\ apart p q 0 /\
     forall G, corr G S p q = Ok (RF 0) /\ corr G S q p = Ok (RF (- 3 / 5))) /\
  (exists S p q c c', mk_base Soar (fz 1000) (fz 100) (fz 0) MV = Ok S /\ apart p q 0 /\
     (forall G, corr G S p q = Ok (RF c) /\ corr G S q p = Ok (RF c')) /\ (c' < 0 < c)%R) /\
  (exists S p q c c', mk_base Toar (fz 1000) (fz 100) (fz 0) MV = Ok S /\ apart p q 0 /\
     (forall G, corr G S p q = Ok (RF c) /\ corr G S q p = Ok (RF c')) /\ (c < 1 < c')%R).
Proof. exact c54_refuted. Qed.
Print Assumptions C54_vertical_symmetry_refuted.
Theorem C54_symmetric_partial : forall (G : geo) h v w, (0 < h)%Qc -> (0 <= v)%Qc -> (0 <= w)%Qc ->
  (forall k hmax, k = Soar \/ k = Toar -> cutoff_ok hmax ->
     exists S, mk_base k (Fin h) (Fin v) (Fin w) hmax = Ok S /\ forall p q d, apart p q d ->
       level (qr v) (diff (p_elev p) (p_elev q)) -> level (qr w) (diff (p_laf p) (p_laf q)) ->
       exists c, corr G S p q = Ok (RF c) /\ corr G S q p = Ok (RF c) /\ (0 <= c <= 1)%R) /\
  (exists S, mk_cressman (Fin h) (Fin v) (Fin w) = Ok S /\ forall p q d, apart p q d ->
     (level (qr v) (diff (p_elev p) (p_elev q)) \/ exists e, diff (p_elev p) (p_elev q) = Some e /\ (Rabs e <= qr v)%R) ->
     (level (qr w) (diff (p_laf p) (p_laf q)) \/ exists e, diff (p_laf p) (p_laf q) = Some e /\ (Rabs e <= qr w)%R) ->
     exists c, corr G S p q = Ok (RF c) /\ corr G S q p = Ok (RF c) /\ (0 <= c <= 1)%R).
Proof. exact c54_partial. Qed.
Print Assumptions C54_symmetric_partial.
Example C54_example : level (qr (qz 100)) (diff (fz 7) NaN) /\ level (qr (qz 0)) (diff (fz 7) (fz 3)) /\ level (qr (qz 100)) (diff (fz 7) (fz 7)) /\
  exists e, diff (fz 7) (fz 3) = Some e /\ (Rabs e <= qr (qz 100))%R.
Proof.
  split; [left; reflexivity|]. split; [right; left; apply qr_z|]. split; [right; right; cbn; f_equal; ring|].
  eexists. split; [reflexivity|]. rewrite !qr_z. rewrite Rabs_right; lra.
Qed.

(** C55: localization of Barnes and power law *)
Theorem C55_localization : forall (G : geo) k h v w, k = Barnes \/ k = Powerlaw -> (0 < h)%Qc -> (0 <= v)%Qc -> (0 <= w)%Qc ->
  (forall m, (0 <= m)%Qc -> exists S, mk_base k (Fin h) (Fin v) (Fin w) (Fin m) = Ok S /\
     (forall p, loc_dist G S p = Ok (RF (qr m))) /\
     (forall p q d, apart p q d -> (qr m < d)%R -> corr G S p q = Ok (RF 0)) /\
     (forall p q d, apart p q d -> (d <= qr m)%R -> exists c, corr G S p q = Ok (RF c) /\ (0 < c)%R)) /\
  (exists S L, mk_base k (Fin h) (Fin v) (Fin w) MV = Ok S /\ (0 < L)%R /\
     (forall p, loc_dist G S p = Ok (RF L)) /\
     (forall p q d, apart p q d -> (L < d)%R -> corr G S p q = Ok (RF 0) /\ (shape k (d / qr h) < 13 / 10000)%R) /\
     (forall p q d, apart p q d -> (d <= L)%R -> (13 / 10000 <= shape k (d / qr h))%R /\
        exists c, corr G S p q = Ok (RF c) /\ (0 < c)%R)).
Proof. exact c55_all. Qed.
Print Assumptions C55_localization.
Example C55_example : exists S, mk_base Powerlaw (fz 1000) (fz 100) (fz 0) (fz 3000) = Ok S /\ loc_dist G0 S (pt (fz 0) NaN NaN) = Ok (RF 3000) /\
  corr G0 S (pt (fz 0) NaN NaN) (pt (fz 3001) NaN NaN) = Ok (RF 0) /\ corr G0 S (pt (fz 0) NaN NaN) (pt (fz 2000) NaN NaN) = Ok (RF (1 / 3)).
Proof.
  exists (base_of Powerlaw (qz 1000) (qz 100) (qz 0) (fz 3000)).
  split; [apply mk_base_ok; try (apply qz_nonneg; lia); right; eexists; split; [reflexivity|]; apply qz_nonneg; lia|].
  assert (EL : loc_h Powerlaw (min_rho_of Powerlaw (RF (qr (qz 1000))) (v2r (fz 3000))) (RF (qr (qz 1000))) = RF 3000).
  { unfold fz; cbn [v2r]; rewrite !qr_z; apply loc_powerlaw_max; lra. }
  split; [rewrite loc_formula, EL; reflexivity|].
  rewrite (corr_formula G0 Powerlaw _ _ _ _ _ _ _ _ ltac:(discriminate) EL (pt_apart 0 3001 NaN NaN NaN NaN ltac:(lia))).
  rewrite (corr_formula G0 Powerlaw _ _ _ _ _ _ _ _ ltac:(discriminate) EL (pt_apart 0 2000 NaN NaN NaN NaN ltac:(lia))).
  change (3001 - 0) with 3001. change (2000 - 0) with 2000. destruct (Rlt_dec 3000 3001); [|lra]. destruct (Rlt_dec 3000 2000); [lra|]. split; [reflexivity|].
  unfold corr3. cbn [pt p_elev p_laf diff factor]. rewrite !qr_z. destruct (Req_EM_T 1000 0); [lra|]. cbn [shape]. do 2 f_equal. field.
Qed.

(** C56: cross validation *)
Theorem C56_cross_validation : forall (G : geo) s dist, built s ->
  (dist = NaN \/ dist = PInf \/ dist = NInf \/ (exists q, dist = Fin q /\ (q < 0)%Qc) -> mk_cross s dist = Throw InvalidArgument) /\
  forall q, dist = Fin q -> (0 <= q)%Qc ->
  exists c, mk_cross s dist = Ok c /\
  (forall p1 p2 d, apart p1 p2 d -> (d <= qr q)%R -> corr_bg G c p1 p2 = Ok (RF 0)) /\
  (forall p1 p2 d, apart p1 p2 d -> (qr q < d)%R -> corr_bg G c p1 p2 = corr_bg G s p1 p2) /\
  (forall p1 p2, corr G c p1 p2 = corr G s p1 p2) /\
  (forall p, loc_dist G c p = loc_dist G s p) /\
  (forall p1 ps l, corr_bg_vec G s p1 ps = Ok l -> exists l', corr_bg_vec G c p1 ps = Ok l' /\ zlen l' = zlen ps /\
     forall i p2 d, znth ps i = Ok p2 -> apart p1 p2 d ->
       ((d <= qr q)%R -> znth l' i = Ok (RF 0)) /\ ((qr q < d)%R -> znth l' i = znth l i)).
Proof. exact c56_all. Qed.
Print Assumptions C56_cross_validation.
Example C56_example : built (base_of Barnes (qz 1000) (qz 0) (qz 0) (fz 3000)) /\
  exists c, mk_cross (base_of Barnes (qz 1000) (qz 0) (qz 0) (fz 3000)) (fz 500) = Ok c /\
  corr_bg G0 c (pt (fz 0) NaN NaN) (pt (fz 500) NaN NaN) = Ok (RF 0) /\
  corr_bg G0 c (pt (fz 0) NaN NaN) (pt (fz 1000) NaN NaN) = Ok (RF (exp (- (1 / 2)))) /\
  corr G0 c (pt (fz 0) NaN NaN) (pt (fz 0) NaN NaN) = Ok (RF 1).
Proof.
  assert (B : built (base_of Barnes (qz 1000) (qz 0) (qz 0) (fz 3000))).
  { eapply built_base. apply mk_base_ok; try (apply qz_nonneg; lia); right; eexists; split; [reflexivity|]; apply qz_nonneg; lia. }
  split; [exact B|]. destruct (proj2 (c56_all G0 _ (fz 500) B) (qz 500) eq_refl (qz_nonneg 500 ltac:(lia))) as (c & E & C1 & C2 & C3 & _).
  exists c. split; [exact E|].
  assert (EL : loc_h Barnes (min_rho_of Barnes (RF (qr (qz 1000))) (v2r (fz 3000))) (RF (qr (qz 1000))) = RF 3000).
  { unfold fz; cbn [v2r]; rewrite !qr_z; apply loc_barnes_max; lra. }
  split; [apply (C1 _ _ _ (pt_apart 0 500 NaN NaN NaN NaN ltac:(lia))); rewrite qr_z; apply Rle_refl|].
  rewrite (C2 _ _ _ (pt_apart 0 1000 NaN NaN NaN NaN ltac:(lia))) by (rewrite qr_z; apply (IZR_lt 500 1000); reflexivity). rewrite C3.
  change (corr_bg G0 (base_of Barnes (qz 1000) (qz 0) (qz 0) (fz 3000))) with (corr G0 (base_of Barnes (qz 1000) (qz 0) (qz 0) (fz 3000))).
  rewrite (corr_formula G0 Barnes _ _ _ _ _ _ _ _ ltac:(discriminate) EL (pt_apart 0 1000 NaN NaN NaN NaN ltac:(lia))).
  rewrite (corr_formula G0 Barnes _ _ _ _ _ _ _ _ ltac:(discriminate) EL (pt_apart 0 0 NaN NaN NaN NaN ltac:(lia))).
  change (1000 - 0) with 1000. change (0 - 0) with 0. destruct (Rlt_dec 3000 1000); [lra|]. destruct (Rlt_dec 3000 0); [lra|].
  unfold corr3. cbn [pt p_elev p_laf diff factor]. rewrite !qr_z. destruct (Req_EM_T 1000 0); [lra|]. cbn [shape].
  split; do 2 f_equal.
  - rewrite !Rmult_1_r. f_equal. field.
  - replace (- (0 / 1000 * (0 / 1000)) / 2)%R with 0%R by field. rewrite exp_0. ring.
Qed.

(** C74: cut-off of Soar and Toar *)
Theorem C74_soar_toar_cutoff_refuted : forall k, k = Soar \/ k = Toar ->
  (exists S, mk_base k (fz 2) (fz 0) (fz 0) (fz 1) = Ok S /\
     forall G p, has_place p -> corr G S p p = Ok (RF 0) /\ exists L, loc_dist G S p = Ok (RF L) /\ (L < 0)%R) /\
  (exists S L, mk_base k (fz 1) (fz 0) (fz 0) MV = Ok S /\ (forall G p, loc_dist G S p = Ok (RF L)) /\ (0 < L)%R /\
     (13 / 10000 < shape k L)%R).
Proof. exact c74_refuted. Qed.
Print Assumptions C74_soar_toar_cutoff_refuted.
Theorem C74_soar_toar_cutoff_partial : forall (G : geo) k h v w hmax, k = Soar \/ k = Toar -> (0 < h)%Qc -> (0 <= v)%Qc -> (0 <= w)%Qc ->
  hmax = NaN \/ (exists m, hmax = Fin m /\ (0 < m)%Qc) ->
  exists S L, mk_base k (Fin h) (Fin v) (Fin w) hmax = Ok S /\ (forall p, loc_dist G S p = Ok (RF L)) /\
  (forall p q d, apart p q d -> (L < d)%R -> corr G S p q = Ok (RF 0)) /\
  (forall p q d, apart p q d -> (d <= L)%R ->
     corr G S p q = Ok (RF (shape k (d / qr h) * factor k (qr v) (diff (p_elev p) (p_elev q))
                                               * factor k (qr w) (diff (p_laf p) (p_laf q))))).
Proof. exact c74_partial. Qed.
Print Assumptions C74_soar_toar_cutoff_partial.
Example C74_example : (fz 3000 = NaN \/ exists m, fz 3000 = Fin m /\ (0 < m)%Qc) /\ mk_base Soar (fz 1000) (fz 0) (fz 0) (fz 3000) = Ok (base_of Soar (qz 1000) (qz 0) (qz 0) (fz 3000)).
Proof.
  split; [right; eexists; split; [reflexivity|]; apply (qz_lt 0 3000); lia|].
  apply mk_base_ok; try (apply qz_nonneg; lia); right; eexists; split; [reflexivity|]; apply qz_nonneg; lia.
Qed.

(** C75: vector forms *)
Theorem C75_vector_form_partial : forall (G : geo) s p1 ps, built s -> solid s -> has_place p1 -> Forall has_place ps -> ps <> [] ->
  (forall l, corr_vec G s p1 ps = Ok l <-> mapM (corr G s p1) ps = Ok l) /\
  (forall l, corr_bg_vec G s p1 ps = Ok l -> mapM (corr_bg G s p1) ps = Ok l).
Proof. exact c75_partial. Qed.
Print Assumptions C75_vector_form_partial.
Theorem C75_vector_form_refuted : exists g S p q, is_grid G0 Cartesian 1 2 [[qz 0; qz 0]] [[qz 0; qz 10]] g /\
  mk_spatial Barnes g [[NaN; fz 1]] [[fz 0; fz 0]] [[fz 0; fz 0]] default_min_rho = Ok S /\
  mk_point G0 (fz 0) (fz 0) MV MV Cartesian = Ok p /\ mk_point G0 (fz 0) (fz 1) MV MV Cartesian = Ok q /\
  corr G0 S p q = Ok (RF 1) /\ corr_vec G0 S p [q] = Ok [RF 0].
Proof. exact c75_refuted. Qed.
Print Assumptions C75_vector_form_refuted.
Example C75_example : exists g S, is_grid G0 Cartesian 1 2 [[qz 0; qz 0]] [[qz 0; qz 10]] g /\
  mk_spatial Soar g [[fz 2; fz 1]] [[fz 0; fz 0]] [[fz 0; fz 0]] default_min_rho = Ok S /\ built S /\ solid S /\
  has_place (pt (fz 0) NaN NaN) /\ exists c, corr_vec G0 S (pt (fz 0) NaN NaN) [pt (fz 2) NaN NaN] = Ok [RF c] /\ (0 < c < 1)%R.
Proof.
  destruct (mk_grid G0 (mFin [[qz 0; qz 0]]) (mFin [[qz 0; qz 10]]) [] [] Cartesian) as [g| | |] eqn:Eg; try (vm_compute in Eg; discriminate).
  assert (RE : forall a b : Qc, rect 1 2 [[a; b]]). { intros a b. split; [reflexivity|]. intros r [<-|[]]. reflexivity. }
  set (b := {| b_kind := Soar; b_grid := g; b_spatial := true; b_h := [[fz 2; fz 1]]; b_v := [[fz 0; fz 0]]; b_w := [[fz 0; fz 0]]; b_min := default_min_rho |}).
  exists g, (SBase b). split. { repeat (split; [lia|]). split; [apply RE|]. split; [apply RE|]. exists [], []. auto. }
  assert (SZ : grid_size g = Ok (1, 2)). { vm_compute in Eg. injection Eg as <-. vm_compute. reflexivity. }
  assert (MK : mk_spatial Soar g [[fz 2; fz 1]] [[fz 0; fz 0]] [[fz 0; fz 0]] default_min_rho = Ok (SBase b)).
  { unfold mk_spatial. cbn [is_1x1]. change (zlen [fz 2; fz 1] =? 1) with false. cbn [andb]. rewrite SZ. reflexivity. }
  split; [exact MK|]. split; [eapply built_spatial; exact MK|].
  split. { intros _. split; [|eexists; split; [reflexivity|lra]]. intros i j x Hx. unfold get2 in Hx. cbn [b b_h] in Hx.
    apply ListLib.bind_Ok in Hx as (r & Hr & Hx). apply ListLib.znth_In in Hr. destruct Hr as [<-|[]]. apply ListLib.znth_In in Hx. destruct Hx as [<-|[<-|[]]]; eexists; reflexivity. }
  split; [do 3 eexists; repeat split|].
  assert (SC : scales G0 b (pt (fz 0) NaN NaN) = Ok (RF (qr (qz 2)), RF (qr (qz 0)), RF (qr (qz 0)))).
  { unfold scales. assert (scale_index G0 b (pt (fz 0) NaN NaN) = Ok (0, 0)) as ->. { unfold scale_index, b. cbn [b_grid]. vm_compute in Eg. injection Eg as <-. vm_compute. reflexivity. }
    reflexivity. }
  exists (shape Soar 1). cbn [corr_vec]. unfold corr_base_vec. change (b_spatial b) with true. rewrite SC. cbn [bind map b_kind b_min b].
  destruct (straight_apart _ _ _ (pt_apart 0 2 NaN NaN NaN NaN ltac:(lia))) as (-> & _). change (2 - 0) with 2.
  change default_min_rho with (min_rho_of Soar (RF (qr (qz 2))) RNaN). rewrite loc_default_st by auto. rewrite !qr_z.
  pose proof ell_gt1. pose proof ln_ell. rewrite rleb_t by (cbn [Ls]; lra). rewrite product_RF by discriminate.
  unfold corr3. cbn [pt p_elev p_laf diff factor]. destruct (Req_EM_T 2 0); [lra|]. replace (2 / 2)%R with 1%R by field. rewrite !Rmult_1_r.
  split; [reflexivity|]. split; [apply shape_pos; [discriminate|lra]|apply shape_lt1_st; auto; lra].
Qed.

(** C76: LinearStructure *)
Theorem C76_linear_refuted :
  (exists S p q, mk_base Linear (Fin (Q2Qc (1 # 2))) (fz 1) (fz 1) MV = Ok S /\ apart p q 1 /\ forall G, corr G S p q = Ok (RF 0)) /\
  (exists S p q, mk_base Linear (fz 1) (fz 0) (fz 1) MV = Ok S /\ apart p q 0 /\
     diff (p_elev p) (p_elev q) = Some 1%R /\ forall G, corr G S p q = Ok (RF 0)).
Proof. exact c76_refuted. Qed.
Print Assumptions C76_linear_refuted.
Theorem C76_linear_partial : forall (G : geo) h v w hmax, (0 <= h <= 1)%Qc -> (0 <= v <= 1)%Qc -> (0 <= w <= 1)%Qc -> cutoff_ok hmax ->
  exists S, mk_base Linear (Fin h) (Fin v) (Fin w) hmax = Ok S /\
  (forall p q d, apart p q d -> (0 < d)%R -> corr G S p q = Ok (RF 0)) /\
  (forall p q, apart p q 0 ->
     corr G S p q = Ok (RF (lin (qr v) (diff (p_elev p) (p_elev q)) * lin (qr w) (diff (p_laf p) (p_laf q)))) /\
     exists c, corr G S p q = Ok (RF c) /\ corr G S q p = Ok (RF c) /\ (qr v * qr w <= c <= 1)%R).
Proof. exact c76_partial. Qed.
Print Assumptions C76_linear_partial.
Example C76_example : exists S, mk_base Linear (fz 0) (Fin (Q2Qc (1 # 2))) (fz 1) MV = Ok S /\
  corr G0 S (pt (fz 0) (fz 3) NaN) (pt (fz 0) (fz 1) NaN) = Ok (RF (1 / 2)).
Proof.
  exists (base_of Linear (qz 0) (Q2Qc (1 # 2)) (qz 1) MV).
  assert (H2 : (0 <= Q2Qc (1 # 2))%Qc) by (vm_compute; discriminate).
  split; [apply mk_base_ok; auto; try (apply qz_nonneg; lia); left; auto|].
  rewrite (corr_linear G0 _ _ _ _ _ _ _ (qz_nonneg 0 ltac:(lia)) H2 (qz_nonneg 1 ltac:(lia)) (pt_apart 0 0 _ _ _ _ ltac:(lia))).
  change (0 - 0) with 0. destruct (Rlt_dec 0 0); [lra|]. cbn [pt p_elev p_laf]. unfold fz. cbn [diff lin]. rewrite !qr_z, qr_q.
  do 2 f_equal. rewrite Rabs_right by lra. unfold Rmin. destruct (Rle_dec (3 - 1) 1); [lra|]. unfold Q2R. cbn. field.
Qed.

(** C77: copies *)
Theorem C77_clone : forall s, built s ->
  exists s', clone s = Ok s' /\
  forall G p1 p2 ps, corr G s' p1 p2 = corr G s p1 p2 /\ corr_bg G s' p1 p2 = corr_bg G s p1 p2 /\
    corr_vec G s' p1 ps = corr_vec G s p1 ps /\ corr_bg_vec G s' p1 ps = corr_bg_vec G s p1 ps /\
    loc_dist G s' p1 = loc_dist G s p1.
Proof. exact c77_all. Qed.
Print Assumptions C77_clone.
Example C77_example : built (SMultiple (base_of Barnes (qz 1) (qz 2) (qz 3) NaN) (base_of Soar (qz 1) (qz 2) (qz 3) NaN) (SCross (SCressman (fz 1) (fz 2) (fz 3)) (fz 7))).
Proof.
  assert (B : forall k, built (base_of k (qz 1) (qz 2) (qz 3) NaN)).
  { intros k. eapply built_base. apply mk_base_ok; try (apply qz_nonneg; lia). left; auto. }
  assert (C : built (SCressman (fz 1) (fz 2) (fz 3))) by (eapply built_cressman, mk_cressman_ok; apply qz_nonneg; lia).
  assert (D : built (SCross (SCressman (fz 1) (fz 2) (fz 3)) (fz 7))) by (eapply built_cross; [exact C|apply mk_cross_built; auto; apply qz_nonneg; lia]).
  eapply built_multiple; [apply (B Barnes)|apply (B Soar)|exact D|]. apply mk_multiple_built; auto.
Qed.

(** C78: MultipleStructure *)
Theorem C78_multiple : forall (G : geo) kh kv kw hh vh wh mh hv vv wv mv hw vw ww mw,
  (kh = Barnes \/ kh = Powerlaw) -> (kv = Barnes \/ kv = Powerlaw) -> (kw = Barnes \/ kw = Powerlaw) ->
  (0 < hh /\ 0 <= vh /\ 0 <= wh)%Qc -> (0 < hv /\ 0 <= vv /\ 0 <= wv)%Qc -> (0 < hw /\ 0 <= vw /\ 0 <= ww)%Qc ->
  cutoff_ok mh -> cutoff_ok mv -> cutoff_ok mw ->
  exists A B C S L, mk_base kh (Fin hh) (Fin vh) (Fin wh) mh = Ok A /\ mk_base kv (Fin hv) (Fin vv) (Fin wv) mv = Ok B /\
    mk_base kw (Fin hw) (Fin vw) (Fin ww) mw = Ok C /\ mk_multiple A B C = Ok S /\
    (forall p, loc_dist G A p = Ok (RF L)) /\ (forall p, loc_dist G S p = Ok (RF L)) /\
    forall p q d, apart p q d ->
      corr G S p q = Ok (RF (if Rlt_dec L d then 0
                             else shape kh (d / qr hh) * factor kv (qr vv) (diff (p_elev p) (p_elev q))
                                                       * factor kw (qr ww) (diff (p_laf p) (p_laf q)))) /\
      (A = B -> B = C -> corr G S p q = corr G A p q).
Proof. exact c78_all. Qed.
Print Assumptions C78_multiple.
Example C78_example : (0 < qz 1000 /\ 0 <= qz 0 /\ 0 <= qz 1)%Qc /\ cutoff_ok (fz 3000) /\ cutoff_ok NaN /\
  apart (pt (fz 0) (fz 1) (fz 0)) (pt (fz 500) (fz 2) NaN) 500.
Proof.
  split; [split; [apply (qz_lt 0 1000); lia|split; apply qz_nonneg; lia]|].
  split; [right; eexists; split; [reflexivity|]; apply qz_nonneg; lia|]. split; [left; auto|]. apply (pt_apart 0 500); lia.
Qed.
