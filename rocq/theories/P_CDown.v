(** Proofs about downscalers of the client and the grid of a file. *)
From Coq Require Import Permutation Sorted Qround.
From Verif Require Import Base ListLib QcTac M_Stat S_Stat S_Search P_Stat M_COpt M_CUtil S_CUtil P_CUtil M_CCal S_CCal P_CCal P_CCal2 M_CTree S_CTree P_CTree M_CDown S_CDown.
Local Open Scope Z_scope.

Lemma veqb_eq a b : veqb a b = true -> a = b.
Proof. destruct a, b; cbn; try discriminate; auto. destruct (qeqb_spec q q0); [congruence|discriminate]. Qed.
Lemma vec_eqb_eq a : forall b, vec_eqb a b = true -> a = b.
Proof. induction a as [|x a IH]; intros [|y b]; cbn; try discriminate; auto. intros H. apply andb_true_iff in H as [H1 H2]. apply veqb_eq in H1. apply IH in H2. congruence. Qed.
Lemma grid_eqb_eq a : forall b, grid_eqb a b = true -> a = b.
Proof. induction a as [|x a IH]; intros [|y b]; cbn; try discriminate; auto. intros H. apply andb_true_iff in H as [H1 H2]. apply vec_eqb_eq in H1. apply IH in H2. congruence. Qed.
Lemma vec_eqb_in a : forall b, vec_eqb a b = true -> forall v, In v a -> v <> NaN.
Proof.
  induction a as [|x a IH]; intros [|y b]; cbn; try discriminate; [contradiction|]. intros H. apply andb_true_iff in H as [H1 H2]. intros v [<-|Hv]; [intros ->; cbn in H1; discriminate|]. eapply IH; eauto.
Qed.
Lemma grid_eqb_in a : forall b, grid_eqb a b = true -> forall i j v, get2 a i j = Ok v -> v <> NaN.
Proof.
  intros b H i j v Hv. unfold get2 in Hv. apply bind_Ok in Hv as (row & Hr & Hv). apply znth_In in Hr, Hv. revert b H. induction a as [|x a IH]; intros [|y b] H; cbn in H; try discriminate; [contradiction|].
  apply andb_true_iff in H as [H1 H2]. destruct Hr as [->|Hr]; [eapply vec_eqb_in; eauto|]. apply (IH Hr b). exact H2.
Qed.
Lemma veqb_refl_fin v : v <> NaN -> veqb v v = true.
Proof. intros H. destruct v; cbn; try reflexivity; [congruence|]. destruct (qeqb_spec q q); congruence. Qed.
Lemma vec_eqb_refl a : (forall v, In v a -> v <> NaN) -> vec_eqb a a = true.
Proof. induction a as [|x a IH]; intros H; cbn; auto. rewrite veqb_refl_fin by (apply H; left; auto). apply IH. intros v Hv. apply H. right; auto. Qed.
Lemma grid_eqb_refl a : (forall i j v, get2 a i j = Ok v -> v <> NaN) -> grid_eqb a a = true.
Proof.
  intros H. assert (H' : forall row, In row a -> forall v, In v row -> v <> NaN). { intros row Hr v Hv. apply In_znth in Hr as [i Hi]. apply In_znth in Hv as [j Hj]. apply (H i j). unfold get2. rewrite Hi. exact Hj. }
  clear H. induction a as [|x a IH]; cbn; auto. rewrite vec_eqb_refl by (apply H'; left; auto). apply IH. intros row Hr. apply H'. right; auto.
Qed.
Lemma num_x_rect ny nx g : 0 < ny -> rect ny nx g -> num_x g = Ok nx.
Proof. intros Hy [R1 R2]. unfold num_x. destruct (znth_some g 0) as [row Hr]; [lia|]. rewrite Hr. cbn [bind]. rewrite (R2 row); [reflexivity|]. eapply znth_In; eauto. Qed.
Lemma rect_identity ny nx : 0 <= ny -> 0 <= nx -> rect ny nx (identity_map ny nx).
Proof.
  intros Hy Hx. split; [unfold identity_map; rewrite zlen_map, zlen_zrange; lia|]. intros r Hr. unfold identity_map in Hr. apply in_map_iff in Hr as (i & <- & _). rewrite zlen_map, zlen_zrange. lia.
Qed.
Lemma file_on_earth ny nx lats lons : file_grid ny nx lats lons -> all_on_earth lats lons.
Proof.
  intros (_ & HA & HO) i j lat lon (E1 & E2 & n1 & n2). destruct (HA _ _ _ E1) as [|(a & [= ->] & A)]; [discriminate|]. destruct (HO _ _ _ E2) as [|(b & [= ->] & B)]; [discriminate|].
  split; [|auto]. change (qz (-(90))) with (qz (-90)) in A. change (qz (-(180))) with (qz (-180)) in B. split; [exact A|].
  assert (qz (-360) <= qz (-180))%Qc by (vm_compute; discriminate). assert (qz 180 <= qz 360)%Qc by (vm_compute; discriminate). destruct B. split; qlra.
Qed.

Lemma map2_ok {A} ny nx (f : Z -> Z -> res A) (P : Z -> Z -> A -> Prop) : 0 <= ny -> 0 <= nx -> (forall i j, 0 <= i < ny -> 0 <= j < nx -> exists v, f i j = Ok v /\ P i j v) ->
  exists m, mapM (fun i => mapM (f i) (zrange 0 nx)) (zrange 0 ny) = Ok m /\ rect ny nx m /\ forall i j, 0 <= i < ny -> 0 <= j < nx -> exists v, get2 m i j = Ok v /\ f i j = Ok v /\ P i j v.
Proof.
  intros Hy Hx H.
  destruct (mapM_total (fun i => mapM (f i) (zrange 0 nx)) (fun i r => zlen r = nx /\ forall j, 0 <= j < nx -> exists v, znth r j = Ok v /\ f i j = Ok v /\ P i j v) (zrange 0 ny)) as (m & E & L & N).
  { intros i Hi. apply in_zrange in Hi. destruct (mapM_total (f i) (P i) (zrange 0 nx)) as (r & Er & Lr & Nr). { intros j Hj. apply in_zrange in Hj. apply H; lia. }
    exists r. split; [exact Er|]. rewrite zlen_zrange in Lr. split; [lia|]. intros j Hj. destruct (Nr j j) as (v & V1 & V2 & V3); [apply znth_zrange; lia|]. eauto. }
  rewrite zlen_zrange in L. exists m. split; [exact E|].
  assert (N' : forall i, 0 <= i < ny -> exists r, znth m i = Ok r /\ zlen r = nx /\ forall j, 0 <= j < nx -> exists v, znth r j = Ok v /\ f i j = Ok v /\ P i j v).
  { intros i Hi. destruct (N i i) as (r & R1 & _ & R2); [apply znth_zrange; lia|]. eauto. }
  split.
  - split; [lia|]. intros r Hr. apply In_znth in Hr as [i Hi]. pose proof (znth_range _ _ _ Hi). destruct (N' i) as (r' & R1 & R2 & _); [lia|]. congruence.
  - intros i j Hi Hj. destruct (N' i Hi) as (r & R1 & R2 & R3). destruct (R3 j Hj) as (v & V1 & V2 & V3). exists v. split; [unfold get2; rewrite R1; exact V1|]. auto.
Qed.
Lemma missing_not_point lats lons i j la lo : get2 lats i j = Ok la -> get2 lons i j = Ok lo -> missing la \/ missing lo -> forall a b, ~ point lats lons i j a b.
Proof. intros E1 E2 H a b (F1 & F2 & n1 & n2). rewrite E1 in F1. rewrite E2 in F2. injection F1 as ->. injection F2 as ->. destruct H as [H|H]; cbn in H; contradiction. Qed.
Lemma get2_identity ny nx i j : 0 <= i < ny -> 0 <= j < nx -> get2 (identity_map ny nx) i j = Ok (i, j).
Proof. intros Hi Hj. unfold identity_map. rewrite (get2_map_zrange ny nx (fun i j => (i, j))); auto. Qed.
Lemma tree_map D srt iy ix ny nx ilats ilons olats olons : zero_at_itself D -> straight D -> sorts_items srt -> file_grid iy ix ilats ilons -> file_grid ny nx olats olons ->
  (exists i j la lo, point ilats ilons i j la lo) ->
  exists t m, build_tree srt ilats ilons = Ok t /\ tree_nearest_all (lift4 D) t ny nx olats olons = Ok m /\ nearest_map D ilats ilons ny nx olats olons m.
Proof.
  intros HZ HSt HS HI HO HX. pose proof (file_on_earth _ _ _ _ HI) as EI. pose proof (file_on_earth _ _ _ _ HO) as EO. pose proof HI as (GI & _). pose proof HO as (GO & CO1 & CO2). pose proof GI as (Hy & Hx & R1 & R2). pose proof GO as (Hy' & Hx' & R1' & R2').
  destruct (build_ok srt ilats ilons iy ix HS GI EI HX) as (t & Et & HN & HOr & HEa & HIn).
    destruct (map2_ok ny nx (fun i j => lat <- get2 olats i j ;; lon <- get2 olons i j ;; if cvalid lat && cvalid lon then tree_nearest (lift4 D) t lat lon else Ok (-999, -999))
      (fun i j v => forall la lo, get2 olats i j = Ok la -> get2 olons i j = Ok lo -> (missing la \/ missing lo -> v = (-999, -999)) /\ (forall lat lon, point olats olons i j lat lon -> is_nearest (D lat lon) ilats ilons (fst v) (snd v)))) as (m & Em & Rm & Nm); try lia.
    { intros i j Hi Hj. destruct (rect_get2 ny nx olats i j R1' Hi Hj) as [la E1]. destruct (rect_get2 ny nx olons i j R2' Hi Hj) as [lo E2]. rewrite E1, E2. cbn [bind].
      destruct (cvalid la && cvalid lo) eqn:V.
      - apply andb_true_iff in V as [V1 V2]. apply cvalid_true in V1 as (qa & -> & na). apply cvalid_true in V2 as (qo & -> & no).
        assert (HP : point olats olons i j qa qo) by (repeat split; auto). destruct (c163 D srt iy ix ilats ilons qa qo HZ HSt HS GI EI HX (EO _ _ _ _ HP)) as (t' & a & b & Et' & En & Ne). rewrite Et in Et'. injection Et' as <-.
        exists (a, b). split; [exact En|]. intros la lo [= <-] [= <-]. split; [intros [K|K]; cbn in K; contradiction|]. intros lat lon HP'. destruct (point_fun _ _ _ _ _ _ _ _ HP HP') as [<- <-]. exact Ne.
      - exists (-999, -999). split; [reflexivity|]. intros la' lo' [= <-] [= <-]. split; [reflexivity|]. intros lat lon (K1 & K2 & n1 & n2). exfalso. rewrite E1 in K1. rewrite E2 in K2. injection K1 as ->. injection K2 as ->. rewrite !cvalid_Fin in V by auto. discriminate. }
    exists t, m. split; [exact Et|]. split; [exact Em|]. split; [exact Rm|]. intros i j la lo E1 E2. destruct (get2_range _ _ _ _ _ _ R1' E1) as [Hi Hj]. destruct (Nm i j Hi Hj) as (v & V1 & _ & V2). rewrite V1. destruct (V2 la lo E1 E2) as [V3 V4]. split.
    + intros K. rewrite (V3 K). reflexivity.
    + intros lat lon HP. exists (fst v), (snd v). split; [destruct v; reflexivity|]. apply V4; auto.
Qed.
Lemma c165 D srt iy ix ny nx ilats ilons olats olons : zero_at_itself D -> straight D -> sorts_items srt -> file_grid iy ix ilats ilons -> file_grid ny nx olats olons ->
  (exists i j la lo, point ilats ilons i j la lo) ->
  exists m, compute_nearest (lift4 D) srt ilats ilons olats olons = Ok m /\ nearest_map D ilats ilons ny nx olats olons m.
Proof.
  intros HZ HSt HS HI HO HX. pose proof (file_on_earth _ _ _ _ HI) as EI. pose proof (file_on_earth _ _ _ _ HO) as EO. pose proof HI as (GI & _). pose proof HO as (GO & CO1 & CO2). pose proof GI as (Hy & Hx & R1 & R2). pose proof GO as (Hy' & Hx' & R1' & R2').
  unfold compute_nearest. rewrite (num_x_rect ny nx olats), (num_x_rect iy ix ilats) by auto. cbn [bind].
  destruct ((zlen ilats =? zlen olats) && (ix =? nx) && grid_eqb ilats olats && grid_eqb ilons olons) eqn:EQ.
  - apply andb_true_iff in EQ as [EQ E4]. apply andb_true_iff in EQ as [EQ E3]. pose proof (grid_eqb_in _ _ E3) as N1. pose proof (grid_eqb_in _ _ E4) as N2. apply grid_eqb_eq in E3, E4. subst olats olons.
    assert (zlen ilats = ny) as -> by (apply R1'). exists (identity_map ny nx). split; [reflexivity|]. split; [apply rect_identity; lia|].
    intros i j la lo E1 E2. destruct (get2_range _ _ _ _ _ _ R1' E1) as [Hi Hj]. rewrite get2_identity by auto. split.
    + intros [H|H]; exfalso.
      * destruct (CO1 _ _ _ E1) as [->|(q & -> & Q)]; [apply (N1 _ _ _ E1); reflexivity|]. cbn in H. subst q. assert (K : (missing_number < qz (-90))%Qc) by (vm_compute; reflexivity). change (qz (-(90))) with (qz (-90)) in Q. destruct Q. qlra.
      * destruct (CO2 _ _ _ E2) as [->|(q & -> & Q)]; [apply (N2 _ _ _ E2); reflexivity|]. cbn in H. subst q. assert (K : (missing_number < qz (-180))%Qc) by (vm_compute; reflexivity). change (qz (-(180))) with (qz (-180)) in Q. destruct Q. qlra.
    + intros lat lon HP. exists i, j. split; [reflexivity|]. exists lat, lon. split; [exact HP|]. intros i' j' lat' lon' _. apply (proj1 HSt). unfold in_between. destruct (Qclt_le_dec lon lon'); [left|right]; split; qlra || apply Qcle_refl.
  - destruct (tree_map D srt iy ix ny nx ilats ilons olats olons) as (t & m & Et & Em & Nm); auto. rewrite Et. cbn [bind]. assert (zlen olats = ny) as -> by (apply R1'). eauto.
Qed.
Lemma c165_same gc srt ny nx lats lons : grid ny nx lats lons -> (forall i j v, get2 lats i j = Ok v -> v <> NaN) -> (forall i j v, get2 lons i j = Ok v -> v <> NaN) ->
  exists m, compute_nearest gc srt lats lons lats lons = Ok m /\ rect ny nx m /\ forall i j, 0 <= i < ny -> 0 <= j < nx -> get2 m i j = Ok (i, j).
Proof.
  intros (Hy & Hx & R1 & R2) N1 N2. unfold compute_nearest. rewrite (num_x_rect ny nx lats) by auto. cbn [bind]. rewrite !Z.eqb_refl, !grid_eqb_refl by auto. cbn [andb]. assert (zlen lats = ny) as -> by (apply R1).
  exists (identity_map ny nx). split; [reflexivity|]. split; [apply rect_identity; lia|]. intros. apply get2_identity; auto.
Qed.
(** the longitude of a file *)
Lemma floor_small (q : Qc) : (0 <= q < qz 360)%Qc -> Qfloor (this q / (360 # 1)) = 0.
Proof.
  intros [H1 H2]. assert (A : (0 <= this q)%Q) by exact H1. assert (B : (this q < 360 # 1)%Q). { unfold Qclt in H2. unfold qz in H2. cbn [this Q2Qc] in H2. rewrite Qred_correct in H2. exact H2. }
  pose proof (Qfloor_le (this q / (360 # 1))) as F1. pose proof (Qlt_floor (this q / (360 # 1))) as F2.
  assert (C : (0 <= this q / (360 # 1))%Q) by (apply Qle_shift_div_l; [reflexivity|rewrite Qmult_0_l; exact A]).
  assert (D : (this q / (360 # 1) < 1)%Q) by (apply Qlt_shift_div_r; [reflexivity|rewrite Qmult_1_l; exact B]).
  pose proof (Qfloor_resp_le 0 (this q / (360 # 1)) C) as G. change (Qfloor 0) with 0 in G.
  assert (inject_Z (Qfloor (this q / (360 # 1))) < inject_Z 1)%Q by (eapply Qle_lt_trans; [exact F1|exact D]). rewrite <- Zlt_Qlt in H. lia.
Qed.
Lemma fmod_small q : (0 <= q < qz 360)%Qc -> fmod360 q = q.
Proof. intros H. unfold fmod360. rewrite floor_small by auto. rewrite qz_0. ring. Qed.
Lemma fmod_360 : fmod360 (qz 360) = 0%Qc.
Proof. apply Qc_is_canon. reflexivity. Qed.
Lemma norm_range v w : norm_lon v = Ok w -> w = v /\ cvalid v = false \/ exists l, w = Fin l /\ (qz (-180) <= l <= qz 180)%Qc.
Proof.
  unfold norm_lon. destruct v; try (intros [= <-]; left; auto; fail). destruct (cvalid (Fin q)) eqn:V; [|intros [= <-]; auto]. destruct (qeqb q 0); [discriminate|]. cbv zeta.
  match goal with |- context [Fin ?e] => set (l := e) end. destruct (qleb_spec (qz (-180)) l); [|discriminate]. destruct (qleb_spec l (qz 180)); [|discriminate]. cbn [andb]. intros [= <-]. right. eauto.
Qed.
Lemma norm_same l w : (qz (-180) <= l <= qz 180)%Qc -> norm_lon (Fin l) = Ok w -> w = Fin l.
Proof.
  intros [H1 H2]. unfold norm_lon. destruct (cvalid (Fin l)); [|congruence]. destruct (qeqb_spec l 0); [discriminate|]. cbv zeta.
  assert (K1 : (qz (-180) + qz 180 = 0)%Qc) by (apply Qc_is_canon; reflexivity). assert (K2 : (qz 180 < qz 360)%Qc) by (apply qz_lt; lia).
  assert (E : (if qltb l 0 then (- fmod360 (- l))%Qc else fmod360 l) = l). { destruct (qltb_spec l 0); rewrite fmod_small; try ring; split; qlra. }
  rewrite E. destruct (qltb_spec (qz 180) l); [exfalso; qlra|]. destruct (qltb_spec l (qz (-180))); [exfalso; qlra|]. destruct (_ && _); [congruence|discriminate].
Qed.
Definition settled (v : val) : Prop := forall w, norm_lon v = Ok w -> w = v.
Lemma norm_settled v w : norm_lon v = Ok w -> settled w.
Proof.
  intros H w' H'. destruct (norm_range v w H) as [[-> V]|(l & -> & L)]; [congruence|]. apply norm_same in H'; auto.
Qed.
Lemma mapM_settled l m : mapM norm_lon l = Ok m -> Forall settled m.
Proof.
  revert m. induction l as [|v l IH]; intros m H; cbn [mapM] in H; [injection H as <-; constructor|]. apply bind_Ok in H as (w & Hw & H). apply bind_Ok in H as (r & Hr & H). injection H as <-. constructor; [eapply norm_settled; eauto|auto].
Qed.
Lemma settled_same l : Forall settled l -> forall m, mapM norm_lon l = Ok m -> m = l.
Proof.
  induction 1 as [|v l Hv Hl IH]; intros m H; cbn [mapM] in H; [congruence|]. apply bind_Ok in H as (w & Hw & H). apply bind_Ok in H as (r & Hr & H). injection H as <-. f_equal; [apply Hv; auto|auto].
Qed.
Lemma mapM2_settled l m : mapM (mapM norm_lon) l = Ok m -> Forall (Forall settled) m.
Proof.
  revert m. induction l as [|v l IH]; intros m H; cbn [mapM] in H; [injection H as <-; constructor|]. apply bind_Ok in H as (w & Hw & H). apply bind_Ok in H as (r & Hr & H). injection H as <-. constructor; [eapply mapM_settled; eauto|auto].
Qed.
Lemma settled2_same l : Forall (Forall settled) l -> forall m, mapM (mapM norm_lon) l = Ok m -> m = l.
Proof.
  induction 1 as [|v l Hv Hl IH]; intros m H; cbn [mapM] in H; [congruence|]. apply bind_Ok in H as (w & Hw & H). apply bind_Ok in H as (r & Hr & H). injection H as <-. f_equal; [apply settled_same; auto|auto].
Qed.
Lemma c167_lon q : q <> 0%Qc -> (qz (-360) <= q <= qz 360)%Qc -> exists r k, norm_lon (Fin q) = Ok (Fin r) /\ (qz (-180) <= r <= qz 180)%Qc /\ (q = r + qz (360 * k))%Qc.
Proof.
  intros H0 [H1 H2]. unfold norm_lon.
  assert (K0 : (qz (-360) + qz 360 = 0)%Qc) by (apply Qc_is_canon; reflexivity). assert (K1 : (qz (-180) + qz 180 = 0)%Qc) by (apply Qc_is_canon; reflexivity). assert (K2 : (qz 180 + qz 180 = qz 360)%Qc) by (apply Qc_is_canon; reflexivity).
  assert (K3 : (missing_number < qz (-360))%Qc) by (apply qz_lt; lia). assert (K4 : (0 < qz 180)%Qc) by (rewrite <- qz_0; apply qz_lt; lia).
  rewrite cvalid_Fin by (intros ->; qlra). destruct (qeqb_spec q 0); [contradiction|]. cbv zeta.
  assert (F : exists f k0, (if qltb q 0 then (- fmod360 (- q))%Qc else fmod360 q) = f /\ (qz (-360) < f < qz 360)%Qc /\ (q = f + qz (360 * k0))%Qc).
  { destruct (qltb_spec q 0) as [N|N].
    - destruct (Qc_eq_dec q (qz (-360))) as [->|NE]. + exists 0%Qc, (-1). replace (- qz (-360))%Qc with (qz 360) by (apply Qc_is_canon; reflexivity). rewrite fmod_360. split; [ring|]. split; [split; qlra|apply Qc_is_canon; reflexivity].
      + exists q, 0. assert (qz (-360) < q)%Qc by (destruct (Qclt_le_dec (qz (-360)) q); auto; exfalso; apply NE; apply Qcle_antisym; auto). rewrite fmod_small by (split; qlra). split; [ring|]. split; [split; qlra|change (360 * 0) with 0; rewrite qz_0; ring].
    - destruct (Qc_eq_dec q (qz 360)) as [->|NE]. + exists 0%Qc, 1. rewrite fmod_360. split; [ring|]. split; [split; qlra|apply Qc_is_canon; reflexivity].
      + exists q, 0. assert (q < qz 360)%Qc by (destruct (Qclt_le_dec q (qz 360)); auto; exfalso; apply NE; apply Qcle_antisym; auto). rewrite fmod_small by (split; qlra). split; [ring|]. split; [split; qlra|change (360 * 0) with 0; rewrite qz_0; ring]. }
  destruct F as (f & k0 & -> & [F1 F2] & F3).
  set (r := if qltb (qz 180) f then (f - qz 360)%Qc else if qltb f (qz (-180)) then (f + qz 360)%Qc else f).
  assert (HR : (qz (-180) <= r <= qz 180)%Qc /\ exists k, (q = r + qz (360 * k))%Qc).
  { unfold r. destruct (qltb_spec (qz 180) f).
    - split; [split; qlra|]. exists (k0 + 1). replace (360 * (k0 + 1)) with (360 * k0 + 360) by lia. rewrite qz_add, F3. ring.
    - destruct (qltb_spec f (qz (-180))).
      + split; [split; qlra|]. exists (k0 - 1). replace (360 * (k0 - 1)) with (360 * k0 + -360) by lia. rewrite qz_add. rewrite F3 at 1. replace (qz 360) with (- qz (-360))%Qc by (apply Qc_is_canon; reflexivity). ring.
      + split; [split; qlra|]. exists k0. exact F3. }
  destruct HR as ([R1 R2] & k & R3). exists r, k. destruct (qleb_spec (qz (-180)) r); [|exfalso; qlra]. destruct (qleb_spec r (qz 180)); [|exfalso; qlra]. cbn [andb]. split; [reflexivity|]. split; [split; auto|exact R3].
Qed.
(** the cache of neighbours *)
Section Cache.
Variables (gc : val -> val -> val -> val -> val) (srt : bool -> list item -> list item).
Definition computed (g h : list vec * list vec) := compute_nearest gc srt (fst g) (snd g) (fst h) (snd h).
Definition sound (G : Z -> list vec * list vec) (s : cstate) : Prop :=
  (forall f, In f (cs_files s) -> fl_tag f < cs_next s /\ G (fl_tag f) = (fl_lats f, fl_lons f) /\ Forall (Forall settled) (fl_lons f)) /\
  (forall a b m, In (a, b, m) (cs_cache s) -> a < cs_next s /\ b < cs_next s /\ computed (G a) (G b) = Ok m).
Definition with_grid (G : Z -> list vec * list vec) (t : Z) (g : list vec * list vec) : Z -> list vec * list vec := fun x => if x =? t then g else G x.
Lemma with_old G t g x : x < t -> with_grid G t g x = G x.
Proof. intros. unfold with_grid. replace (x =? t) with false by lia. reflexivity. Qed.
Lemma with_new G t g : with_grid G t g t = g.
Proof. unfold with_grid. rewrite Z.eqb_refl. reflexivity. Qed.
Lemma in_zset {A} (l : list A) k v l' x : zset l k v = Ok l' -> In x l' -> x = v \/ In x l.
Proof.
  intros H Hx. apply In_znth in Hx as [i Hi]. pose proof H as H'. unfold zset in H'. destruct (_ || _) eqn:B in H'; [discriminate|]. injection H' as <-. apply orb_false_iff in B as [B1 B2].
  rewrite znth_lset in Hi by lia. destruct (Z.eq_dec i k) as [->|n]. - rewrite Z.eqb_refl in Hi. left. congruence. - replace (i =? k) with false in Hi by lia. right. eapply znth_In; eauto.
Qed.
Lemma sound_set G s k f f' next l : sound G s -> znth (cs_files s) k = Ok f -> zset (cs_files s) k f' = Ok l -> Forall (Forall settled) (fl_lons f') ->
  (f' = f /\ next = cs_next s \/ fl_tag f' = cs_next s /\ next = cs_next s + 1) ->
  exists G', sound G' {| cs_files := l; cs_next := next; cs_cache := cs_cache s |}.
Proof.
  intros (S1 & S2) Hf Hl HS [[-> ->]|[Ht ->]].
  - exists G. split; cbn; [|exact S2]. intros x Hx. apply (in_zset _ _ _ _ _ Hl) in Hx as [->|Hx]; [|apply S1; auto]. apply S1. eapply znth_In; eauto.
  - exists (with_grid G (cs_next s) (fl_lats f', fl_lons f')). split; cbn.
    + intros x Hx. apply (in_zset _ _ _ _ _ Hl) in Hx as [->|Hx].
      * rewrite Ht, with_new. split; [lia|]. auto.
      * destruct (S1 x Hx) as (A & B & C). rewrite with_old by lia. split; [lia|]. auto.
    + intros a b m Hm. destruct (S2 a b m Hm) as (A & B & C). rewrite !with_old by lia. split; [lia|]. split; [lia|]. exact C.
Qed.
Lemma lookup_in c a b m : lookup c a b = Some m -> In (a, b, m) c.
Proof.
  unfold lookup. destruct (find _ c) as [[[x y] z]|] eqn:E; [|discriminate]. intros [= <-]. pose proof (find_some _ _ E) as [H1 H2]. cbn in H2. apply andb_true_iff in H2 as [H2 H3]. cbn. replace a with x by lia. replace b with y by lia. exact H1.
Qed.
Lemma step_sound G s o s' : sound G s -> step gc srt s o = Ok s' -> exists G', sound G' s'.
Proof.
  intros HS. pose proof HS as (S1 & S2). destruct o as [|k|k g|k g|a b]; cbn [step].
  - intros [= <-]. exists (with_grid G (cs_next s) ([], [])). split; cbn.
    + intros f Hf. apply in_app_iff in Hf as [Hf|[<-|[]]].
      * destruct (S1 f Hf) as (A & B & C). rewrite with_old by lia. split; [lia|]. auto.
      * cbn. rewrite with_new. split; [lia|]. split; [reflexivity|constructor].
    + intros a b m Hm. destruct (S2 a b m Hm) as (A & B & C). rewrite !with_old by lia. split; [lia|]. split; [lia|]. exact C.
  - unfold copy_file. intros H. apply bind_Ok in H as (f & Hf & H). injection H as <-. exists G. split; cbn; [|exact S2]. intros x Hx. apply in_app_iff in Hx as [Hx|[<-|[]]]; apply S1; auto. eapply znth_In; eauto.
  - intros H. apply bind_Ok in H as ([b s1] & H & E). injection E as <-. cbn [snd]. unfold set_lats in H. apply bind_Ok in H as (f & Hf & H). apply bind_Ok in H as (no & _ & H). destruct no; [injection H as _ <-; eauto|]. cbv zeta in H. destruct (existsb _ g); [discriminate|].
    apply bind_Ok in H as (l & Hl & H). injection H as _ <-. assert (SF : Forall (Forall settled) (fl_lons f)) by (apply S1; eapply znth_In; eauto). eapply sound_set; [exact HS|exact Hf|exact Hl|exact SF|].
    destruct (grid_eqb (fl_lats f) g) eqn:E; [left|right; auto]. apply grid_eqb_eq in E. subst g. split; [destruct f; reflexivity|reflexivity].
  - intros H. apply bind_Ok in H as ([b s1] & H & E). injection E as <-. cbn [snd]. unfold set_lons in H. apply bind_Ok in H as (f & Hf & H). apply bind_Ok in H as (no & _ & H). destruct no; [injection H as _ <-; eauto|]. cbv zeta in H. destruct (existsb _ g); [discriminate|].
    apply bind_Ok in H as (g' & Hg & H). apply bind_Ok in H as (l & Hl & H). injection H as _ <-. assert (SF : Forall (Forall settled) (fl_lons f)) by (apply S1; eapply znth_In; eauto). eapply sound_set; [exact HS|exact Hf|exact Hl|eapply mapM2_settled; eauto|].
    destruct (grid_eqb (fl_lons f) g) eqn:E; [left|right; auto]. apply grid_eqb_eq in E. subst g. apply (settled2_same _ SF) in Hg. subst g'. split; [destruct f; reflexivity|reflexivity].
  - intros H. apply bind_Ok in H as ([m s1] & H & E). injection E as <-. cbn [snd]. unfold get_nearest in H. apply bind_Ok in H as (f & Hf & H). apply bind_Ok in H as (h & Hh & H). destruct (lookup _ _ _) as [m'|]; [injection H as _ <-; eauto|].
    apply bind_Ok in H as (m' & Hm & H). injection H as _ <-. exists G. split; cbn; [exact S1|]. intros x y z [[= <- <- <-]|Hz]; [|apply S2; auto]. apply znth_In in Hf, Hh. destruct (S1 f Hf) as (A & B & _). destruct (S1 h Hh) as (A' & B' & _).
    split; [exact A|]. split; [exact A'|]. unfold computed. rewrite B, B'. exact Hm.
Qed.
Lemma run_sound ops : forall G s s', sound G s -> foldM (step gc srt) s ops = Ok s' -> exists G', sound G' s'.
Proof.
  induction ops as [|o ops IH]; intros G s s' HS H; cbn [foldM] in H; [injection H as <-; eauto|]. apply bind_Ok in H as (s1 & H1 & H). destruct (step_sound G s o s1 HS H1) as [G1 HS1]. eapply IH; eauto.
Qed.
Lemma c166_in ops s a b f g : foldM (step gc srt) start ops = Ok s -> znth (cs_files s) a = Ok f -> znth (cs_files s) b = Ok g ->
  (r <- get_nearest gc srt s a b ;; Ok (fst r)) = compute_nearest gc srt (fl_lats f) (fl_lons f) (fl_lats g) (fl_lons g).
Proof.
  intros HR Hf Hg. assert (H0 : sound (fun _ => ([], [])) start) by (split; intros; contradiction). destruct (run_sound ops _ _ _ H0 HR) as (G & S1 & S2).
  unfold get_nearest. rewrite Hf, Hg. cbn [bind]. destruct (lookup _ _ _) as [m|] eqn:E.
  - cbn [bind fst]. apply lookup_in in E. destruct (S2 _ _ _ E) as (_ & _ & C). apply znth_In in Hf, Hg. destruct (S1 f Hf) as (_ & B & _). destruct (S1 g Hg) as (_ & B' & _). unfold computed in C. rewrite B, B' in C. symmetry. exact C.
  - destruct (compute_nearest _ _ _ _ _ _); reflexivity.
Qed.
End Cache.
Lemma c166 gc srt ops s a b f g : foldM (step gc srt) start ops = Ok s -> znth (cs_files s) a = Ok f -> znth (cs_files s) b = Ok g ->
  (r <- get_nearest gc srt s a b ;; Ok (fst r)) = compute_nearest gc srt (fl_lats f) (fl_lons f) (fl_lats g) (fl_lons g).
Proof. apply c166_in. Qed.
(** setting the coordinates *)
Lemma refused_no f old ny nx g : 0 < ny -> 0 < nx -> rect ny nx g -> (old = [] \/ rect ny nx (fl_lats f)) -> refused old (fl_lats f) g = Ok false.
Proof.
  intros Hy Hx R [->|R']; unfold refused; [reflexivity|]. destruct (zlen old =? 0); [reflexivity|]. destruct R as [R1 R2]. rewrite R1, (proj1 R'), Z.eqb_refl. cbn [negb]. destruct (znth_some g 0) as [row Hr]; [lia|]. rewrite Hr. cbn [bind].
  rewrite (num_x_rect ny nx) by auto. cbn [bind]. rewrite (R2 row) by (eapply znth_In; eauto). rewrite Z.eqb_refl. reflexivity.
Qed.
Lemma existsb_get2 (p : val -> bool) (g : list vec) : existsb (existsb p) g = true <-> exists i j v, get2 g i j = Ok v /\ p v = true.
Proof.
  rewrite existsb_exists. split.
  - intros (row & Hr & H). apply existsb_exists in H as (v & Hv & H). apply In_znth in Hr as [i Hi]. apply In_znth in Hv as [j Hj]. exists i, j, v. split; [unfold get2; rewrite Hi; exact Hj|exact H].
  - intros (i & j & v & Hv & H). unfold get2 in Hv. apply bind_Ok in Hv as (row & Hr & Hv). apply znth_In in Hr, Hv. exists row. split; [exact Hr|]. apply existsb_exists. eauto.
Qed.
Lemma lat_limits limit v : 0 <= limit -> (vltb v (fz (- limit)) || vltb (fz limit) v = false <-> within_limit limit v).
Proof.
  intros HL. destruct v; cbn -[fz qz]; unfold fz; cbn [vltb].
  - split; auto. left. reflexivity.
  - split; [discriminate|]. intros [|(q & ? & _)]; discriminate.
  - split; [discriminate|]. intros [|(q & ? & _)]; discriminate.
  - split.
    + intros H. apply orb_false_iff in H as [H1 H2]. right. exists q. split; [reflexivity|]. destruct (qltb_spec q (qz (- limit))); [discriminate|]. destruct (qltb_spec (qz limit) q); [discriminate|]. split; qlra.
    + intros [|(r & [= <-] & [H1 H2])]; [discriminate|]. destruct (qltb_spec q (qz (- limit))); [exfalso; qlra|]. destruct (qltb_spec (qz limit) q); [exfalso; qlra|]. reflexivity.
Qed.
Lemma limits_all limit (g : list vec) : 0 <= limit -> (existsb (existsb (fun v => vltb v (fz (- limit)) || vltb (fz limit) v)) g = false <-> forall i j v, get2 g i j = Ok v -> within_limit limit v).
Proof.
  intros HL. split.
  - intros H i j v Hv. apply lat_limits; auto. destruct (_ || _) eqn:E; [|reflexivity]. exfalso. assert (K : existsb (existsb (fun v => vltb v (fz (- limit)) || vltb (fz limit) v)) g = true) by (apply existsb_get2; eauto). congruence.
  - intros H. destruct (existsb _ g) eqn:E; [|reflexivity]. apply existsb_get2 in E as (i & j & v & Hv & K). apply H in Hv. apply lat_limits in Hv; auto. congruence.
Qed.
Lemma mapM2_ok {A B} (f : A -> res B) (P : A -> B -> Prop) ny nx (g : list (list A)) : rect ny nx g -> (forall i j v, get2 g i j = Ok v -> exists w, f v = Ok w /\ P v w) ->
  exists m, mapM (mapM f) g = Ok m /\ rect ny nx m /\ forall i j v, get2 g i j = Ok v -> exists w, get2 m i j = Ok w /\ P v w.
Proof.
  intros [R1 R2] H.
  destruct (mapM_total (mapM f) (fun r s => zlen s = zlen r /\ forall j v, znth r j = Ok v -> exists w, znth s j = Ok w /\ P v w) g) as (m & E & L & N).
  { intros r Hr. apply In_znth in Hr as [i Hi]. destruct (mapM_total f P r) as (s & Es & Ls & Ns). { intros v Hv. apply In_znth in Hv as [j Hj]. apply (H i j). unfold get2. rewrite Hi. exact Hj. }
    exists s. split; [exact Es|]. split; [exact Ls|]. intros j v Hv. destruct (Ns j v Hv) as (w & W1 & _ & W2). eauto. }
  exists m. split; [exact E|]. split.
  - split; [lia|]. intros s Hs. apply In_znth in Hs as [i Hi]. pose proof (znth_range _ _ _ Hi). destruct (znth_some g i) as [r Hr]; [lia|]. destruct (N i r Hr) as (s' & S1 & _ & S2 & _). rewrite S1 in Hi. injection Hi as ->. rewrite S2. apply R2. eapply znth_In; eauto.
  - intros i j v Hv. unfold get2 in Hv. apply bind_Ok in Hv as (r & Hr & Hv). destruct (N i r Hr) as (s & S1 & _ & _ & S2). destruct (S2 j v Hv) as (w & W1 & W2). exists w. split; [unfold get2; rewrite S1; exact W1|exact W2].
Qed.
Lemma zset_facts {A} (l : list A) k v w : znth l k = Ok v -> exists l', zset l k w = Ok l' /\ znth l' k = Ok w /\ forall j, j <> k -> znth l' j = znth l j.
Proof.
  intros H. pose proof (znth_range _ _ _ H) as K. exists (lset l (Z.to_nat k) w). unfold zset. replace ((k <? 0) || (zlen l <=? k)) with false by lia. split; [reflexivity|]. split.
  - rewrite znth_lset by lia. rewrite Z.eqb_refl. reflexivity.
  - intros j Hj. rewrite znth_lset by lia. replace (j =? k) with false by lia. reflexivity.
Qed.
Lemma c167_lats s k f ny nx g : znth (cs_files s) k = Ok f -> 0 < ny -> 0 < nx -> fl_lats f = [] \/ rect ny nx (fl_lats f) -> rect ny nx g ->
  ((forall i j v, get2 g i j = Ok v -> within_limit 90 v) -> exists s' f', set_lats s k g = Ok (true, s') /\ znth (cs_files s') k = Ok f' /\ fl_lats f' = g /\ fl_lons f' = fl_lons f /\ forall j, j <> k -> znth (cs_files s') j = znth (cs_files s) j) /\
  ((exists i j v, get2 g i j = Ok v /\ ~ within_limit 90 v) -> set_lats s k g = Abort).
Proof.
  intros Hf Hy Hx HO R. unfold set_lats. rewrite Hf. cbn [bind]. rewrite (refused_no f (fl_lats f) ny nx) by auto. cbn [bind]. cbv zeta. split.
  - intros H. replace (existsb (existsb lat_bad) g) with false by (symmetry; apply (proj2 (limits_all 90 g ltac:(lia)) H)).
    destruct (zset_facts (cs_files s) k f {| fl_lats := g; fl_lons := fl_lons f; fl_tag := if grid_eqb (fl_lats f) g then fl_tag f else cs_next s |} Hf) as (l & El & L1 & L2). rewrite El. cbn [bind]. eexists _, _. split; [reflexivity|]. cbn. split; [exact L1|]. auto.
  - intros (i & j & v & Hv & H). replace (existsb (existsb lat_bad) g) with true; [reflexivity|]. symmetry. apply existsb_get2. exists i, j, v. split; [exact Hv|]. destruct (lat_bad v) eqn:E; [reflexivity|]. exfalso. apply H. apply lat_limits; [lia|exact E].
Qed.
Lemma c167_lons s k f ny nx g : znth (cs_files s) k = Ok f -> 0 < ny -> 0 < nx -> fl_lons f = [] \/ rect ny nx (fl_lats f) -> rect ny nx g ->
  ((forall i j v, get2 g i j = Ok v -> within_limit 360 v /\ not_zero v) -> exists s' f', set_lons s k g = Ok (true, s') /\ znth (cs_files s') k = Ok f' /\ fl_lats f' = fl_lats f /\ rect ny nx (fl_lons f') /\
    (forall i j v, get2 g i j = Ok v -> exists w, get2 (fl_lons f') i j = Ok w /\ wrapped v w) /\ forall j, j <> k -> znth (cs_files s') j = znth (cs_files s) j) /\
  ((exists i j v, get2 g i j = Ok v /\ ~ within_limit 360 v) -> set_lons s k g = Abort).
Proof.
  intros Hf Hy Hx HO R. unfold set_lons. rewrite Hf. cbn [bind]. rewrite (refused_no f (fl_lons f) ny nx) by auto. cbn [bind]. cbv zeta. split.
  - intros H. replace (existsb (existsb lon_bad) g) with false. 2:{ symmetry. apply (proj2 (limits_all 360 g ltac:(lia))). intros i j v Hv. apply (H i j v Hv). }
    destruct (mapM2_ok norm_lon wrapped ny nx g R) as (m & Em & Rm & Nm).
    { intros i j v Hv. destruct (H i j v Hv) as [[->|(q & -> & Q)] NZ]; [exists NaN; split; [reflexivity|left; auto]|]. destruct (c167_lon q) as (r & kk & E & RR & RE); auto; [intros ->; apply NZ; reflexivity|]. exists (Fin r). split; [exact E|]. right. exists q, r, kk. auto. }
    rewrite Em. cbn [bind]. destruct (zset_facts (cs_files s) k f {| fl_lats := fl_lats f; fl_lons := m; fl_tag := if grid_eqb (fl_lons f) g then fl_tag f else cs_next s |} Hf) as (l & El & L1 & L2). rewrite El. cbn [bind]. eexists _, _. split; [reflexivity|]. cbn. split; [exact L1|]. auto.
  - intros (i & j & v & Hv & H). replace (existsb (existsb lon_bad) g) with true; [reflexivity|]. symmetry. apply existsb_get2. exists i, j, v. split; [exact Hv|]. destruct (lon_bad v) eqn:E; [reflexivity|]. exfalso. apply H. apply lat_limits; [lia|exact E].
Qed.
Lemma c167_sizes s k f ny nx gy gx g : znth (cs_files s) k = Ok f -> 0 < ny -> 0 < nx -> rect ny nx (fl_lats f) -> 0 < gy -> rect gy gx g -> gy <> ny \/ gx <> nx ->
  set_lats s k g = Ok (false, s) /\ (fl_lons f <> [] -> set_lons s k g = Ok (false, s)).
Proof.
  intros Hf Hy Hx R HG [R1 R2] HD. assert (K : forall old, old <> [] -> refused old (fl_lats f) g = Ok true).
  { intros old HO. unfold refused. destruct (Z.eqb_spec (zlen old) 0) as [E|_]. { exfalso. apply HO. destruct old as [|x old]; [reflexivity|]. rewrite zlen_cons in E. pose proof (zlen_nonneg old). lia. }
    rewrite R1, (proj1 R). destruct (Z.eqb_spec gy ny); [|reflexivity]. cbn [negb]. destruct (znth_some g 0) as [row Hr]; [lia|]. rewrite Hr. cbn [bind]. rewrite (num_x_rect ny nx) by auto. cbn [bind]. rewrite (R2 row) by (eapply znth_In; eauto). replace (gx =? nx) with false by lia. reflexivity. }
  unfold set_lats, set_lons. rewrite Hf. cbn [bind]. rewrite K. 2:{ intros E. rewrite E in R. destruct R as [R _]. change (zlen (@nil vec)) with 0 in R. lia. }
  split; [reflexivity|]. intros HO. rewrite (K _ HO). reflexivity.
Qed.
Lemma c167_refuted : exists s k g, rect 1 1 g /\ (forall i j v, get2 g i j = Ok v -> within_limit 180 v) /\ set_lons s k g = UB.
Proof.
  exists {| cs_files := [{| fl_lats := [[fz 60]]; fl_lons := []; fl_tag := 0 |}]; cs_next := 1; cs_cache := [] |}, 0, [[fz 0]]. split; [split; [reflexivity|intros r [<-|[]]; reflexivity]|]. split.
  - intros i j v Hv. destruct (get2_range [[fz 0]] 1 1 i j v) as [Hi Hj]; [split; [reflexivity|intros r [<-|[]]; reflexivity]|exact Hv|]. assert (i = 0) by lia. assert (j = 0) by lia. subst. vm_compute in Hv. injection Hv as <-. right. exists (qz 0). split; [reflexivity|]. split; vm_compute; discriminate.
  - vm_compute. reflexivity.
Qed.
(** writing all elements *)
Lemma write_ok d ofs value (P : Z -> Z -> Z -> Z -> val -> Prop) : shaped d ofs -> (forall t y x e, 0 <= t < d_t d -> within d y x e -> exists w, value t y x e = Ok w /\ P t y x e w) ->
  exists out, write_elements d ofs value = Ok out /\ shaped d out /\ forall t y x e, 0 <= t < d_t d -> within d y x e -> exists w, element out t y x e w /\ P t y x e w.
Proof.
  intros H HV. unfold write_elements. match goal with |- context [each_time d ?b] => destruct (each_time_ok d ofs b (fun t g => forall y x e, within d y x e -> exists w, f_get g y x e = Ok w /\ P t y x e w) H) as (out & E & S & G) end.
  - intros t Ht. destruct (shaped_nth d ofs t H Ht) as (f & Ef & Sf). rewrite Ef. cbn [bind]. apply for3_ok; auto. intros f1 y x e v S1 W _ _. left. destruct (HV t y x e Ht W) as (w & Ew & Pw). rewrite Ew. cbn [bind]. eauto.
  - exists out. split; [exact E|]. split; [exact S|]. intros t y x e Ht W. destruct (G t Ht) as (g & Hg & Pg). destruct (Pg y x e W) as (w & Hw & Pw). exists w. split; [exists g; auto|exact Pw].
Qed.
Lemma write_abort d ofs value : shaped d ofs -> (forall t y x e, 0 <= t < d_t d -> within d y x e -> (exists w, value t y x e = Ok w) \/ value t y x e = Abort) ->
  (exists t y x e, 0 <= t < d_t d /\ within d y x e /\ value t y x e = Abort) -> write_elements d ofs value = Abort.
Proof.
  intros H HV (t0 & y0 & x0 & e0 & Ht0 & W0 & HA). unfold write_elements, each_time.
  assert (L : forall t l f, 0 <= t < d_t d -> (forall c, In c l -> let '(y, x, e) := c in within d y x e) -> of_size d f ->
    let r := foldM (fun s c => let '(y, x, e) := c in w <- value t y x e ;; f_set s y x e w) f l in
    ((exists g, r = Ok g) \/ r = Abort) /\ ((exists y x e, In (y, x, e) l /\ value t y x e = Abort) -> r = Abort)).
  { intros t l. induction l as [|[[y x] e] l IH]; intros f Ht HW Sf; cbn [foldM].
    - split; [left; eauto|]. intros (? & ? & ? & [] & _).
    - assert (W : within d y x e) by (apply (HW (y, x, e)); left; auto). destruct (HV t y x e Ht W) as [[w Ew]|Ea].
      + rewrite Ew. cbn [bind]. destruct (f_set_size d f y x e w Sf W) as (g & Eg & Sg & _). rewrite Eg. cbn [bind]. destruct (IH g Ht) as [I1 I2]; auto. { intros c Hc. apply HW. right; auto. }
        split; [exact I1|]. intros (y' & x' & e' & [[= <- <- <-]|HI] & K); [congruence|]. apply I2. eauto.
      + rewrite Ea. cbn [bind]. auto. }
  assert (T : forall l, (forall t, In t l -> 0 <= t < d_t d) ->
    let r := mapM (fun t => f <- znth ofs t ;; for3 d f (fun f y x e => w <- value t y x e ;; f_set f y x e w)) l in
    ((exists g, r = Ok g) \/ r = Abort) /\ (In t0 l -> r = Abort)).
  { induction l as [|t l IH]; intros HT; cbn [mapM]; [split; [left; eauto|contradiction]|]. assert (Ht : 0 <= t < d_t d) by (apply HT; left; auto). destruct (shaped_nth d ofs t H Ht) as (f & Ef & Sf). rewrite Ef. cbn [bind].
    destruct (L t (cells (d_y d) (d_x d) (d_e d)) f Ht) as [L1 L2]; auto. { intros [[y x] e] Hc. apply in_cells in Hc. exact Hc. }
    destruct (IH ltac:(intros; apply HT; right; auto)) as [I1 I2]. unfold for3 in *. split.
    - destruct L1 as [[g ->]| ->]; cbn [bind]; [|auto]. destruct I1 as [[m ->]| ->]; cbn [bind]; eauto.
    - intros [->|Hin].
      + rewrite L2; [reflexivity|]. exists y0, x0, e0. split; [apply in_cells; exact W0|exact HA].
      + destruct L1 as [[g ->]| ->]; cbn [bind]; [|auto]. rewrite (I2 Hin). reflexivity. }
  apply T; [intros t Ht; apply in_zrange in Ht; lia|apply in_zrange; lia].
Qed.
Lemma nearest_in D iy ix ilats ilons a b : grid iy ix ilats ilons -> is_nearest D ilats ilons a b -> 0 <= a < iy /\ 0 <= b < ix.
Proof. intros (_ & _ & R & _) (la & lo & (E & _) & _). eapply get2_range; eauto. Qed.
Lemma ivalid_nonneg i : 0 <= i -> ivalid i = true.
Proof. unfold ivalid. lia. Qed.
Lemma outcome_cases (la lo : val) : missing la \/ missing lo \/ exists lat lon, la = Fin lat /\ lo = Fin lon /\ lat <> missing_number /\ lon <> missing_number.
Proof.
  destruct (cvalid la) eqn:V1; [|left; apply cvalid_missing; auto]. destruct (cvalid lo) eqn:V2; [|right; left; apply cvalid_missing; auto]. apply cvalid_true in V1 as (a & -> & na). apply cvalid_true in V2 as (b & -> & nb). right. right. eauto 6.
Qed.
(** the nearest neighbour *)
Lemma c168 D di d ilats ilons olats olons m ifs ofs : grid (d_y di) (d_x di) ilats ilons -> grid (d_y d) (d_x d) olats olons -> nearest_map D ilats ilons (d_y d) (d_x d) olats olons m ->
  shaped di ifs -> shaped d ofs -> d_t di = d_t d -> d_e d <= d_e di ->
  exists out, downscale (d_t di) d ofs (nearest_downscaler m ifs) = Ok (true, out) /\ shaped d out /\
  forall y x la lo, get2 olats y x = Ok la -> get2 olons y x = Ok lo ->
    (missing la \/ missing lo -> forall t e, 0 <= t < d_t d -> 0 <= e < d_e d -> element out t y x e (Fin missing_number)) /\
    (forall lat lon, point olats olons y x lat lon -> exists a b, is_nearest (D lat lon) ilats ilons a b /\
      forall t e, 0 <= t < d_t d -> 0 <= e < d_e d -> exists v, element ifs t a b e v /\ element out t y x e v).
Proof.
  intros GI GO [Rm NM] SI SO HT HE. unfold downscale. rewrite HT, Z.eqb_refl. cbn [negb]. pose proof GO as (Hy & Hx & R1 & R2).
  destruct (write_ok d ofs (nearest_value m ifs) (fun t y x e w => nearest_value m ifs t y x e = Ok w) SO) as (out & E & S & P).
  { intros t y x e Ht (W1 & W2 & W3). unfold nearest_value. destruct (rect_get2 _ _ olats y x R1 W1 W2) as [la E1]. destruct (rect_get2 _ _ olons y x R2 W1 W2) as [lo E2]. destruct (NM y x la lo E1 E2) as [N1 N2].
    destruct (outcome_cases la lo) as [K|[K|(lat & lon & -> & -> & n1 & n2)]]; [rewrite N1 by auto; cbn; eauto|rewrite N1 by auto; cbn; eauto|].
    destruct (N2 lat lon) as (a & b & Em & Ne); [repeat split; auto|]. rewrite Em. cbn [bind]. destruct (nearest_in _ _ _ _ _ _ _ GI Ne) as [Ha Hb]. rewrite !ivalid_nonneg by lia. cbn [andb].
    destruct (shaped_elem di ifs t a b e SI) as (v & _ & Ev); [lia|repeat split; lia|]. eauto. }
  unfold nearest_downscaler. rewrite E. cbn [bind]. exists out. split; [reflexivity|]. split; [exact S|]. intros y x la lo E1 E2. destruct (get2_range _ _ _ _ _ _ R1 E1) as [W1 W2]. destruct (NM y x la lo E1 E2) as [N1 N2]. split.
  - intros K t e Ht He. destruct (P t y x e Ht) as (w & Ew & Vw); [repeat split; lia|]. unfold nearest_value in Vw. rewrite N1 in Vw by auto. cbn in Vw. injection Vw as <-. exact Ew.
  - intros lat lon HP. destruct (N2 lat lon HP) as (a & b & Em & Ne). exists a, b. split; [exact Ne|]. intros t e Ht He. destruct (P t y x e Ht) as (w & Ew & Vw); [repeat split; lia|]. unfold nearest_value in Vw. rewrite Em in Vw. cbn [bind] in Vw.
    destruct (nearest_in _ _ _ _ _ _ _ GI Ne) as [Ha Hb]. rewrite !ivalid_nonneg in Vw by lia. cbn [andb] in Vw. exists w. split; [apply element_get; exact Vw|exact Ew].
Qed.
Lemma c168_members D di d ilats ilons olats olons m ifs ofs : grid (d_y di) (d_x di) ilats ilons -> grid (d_y d) (d_x d) olats olons -> nearest_map D ilats ilons (d_y d) (d_x d) olats olons m ->
  shaped di ifs -> shaped d ofs -> d_t di = d_t d -> 0 < d_t d -> d_e di < d_e d -> (exists y x lat lon, point olats olons y x lat lon) ->
  downscale (d_t di) d ofs (nearest_downscaler m ifs) = Abort.
Proof.
  intros GI GO [Rm NM] SI SO HT H0 HE (y0 & x0 & lat0 & lon0 & HP). unfold downscale. rewrite HT, Z.eqb_refl. cbn [negb]. pose proof GO as (Hy & Hx & R1 & R2). pose proof SI as (_ & _ & _ & I4 & _).
  unfold nearest_downscaler. rewrite write_abort; auto.
  - intros t y x e Ht (W1 & W2 & W3). unfold nearest_value. destruct (rect_get2 _ _ olats y x R1 W1 W2) as [la E1]. destruct (rect_get2 _ _ olons y x R2 W1 W2) as [lo E2]. destruct (NM y x la lo E1 E2) as [N1 N2].
    destruct (outcome_cases la lo) as [K|[K|(lat & lon & -> & -> & n1 & n2)]]; [rewrite N1 by auto; cbn; eauto|rewrite N1 by auto; cbn; eauto|].
    destruct (N2 lat lon) as (a & b & Em & Ne); [repeat split; auto|]. rewrite Em. cbn [bind]. destruct (nearest_in _ _ _ _ _ _ _ GI Ne) as [Ha Hb]. rewrite !ivalid_nonneg by lia. cbn [andb].
    destruct (Z_lt_le_dec e (d_e di)). + destruct (shaped_elem di ifs t a b e SI) as (v & _ & Ev); [lia|repeat split; lia|]. eauto.
    + right. unfold get4. destruct (shaped_nth di ifs t SI) as (f & Ef & Sf); [lia|]. rewrite Ef. cbn [bind]. unfold f_get, f_index. destruct Sf as (_ & _ & _ & ->). replace (e <? d_e di) with false by lia. rewrite andb_false_r. reflexivity.
  - pose proof HP as (E1 & E2 & _). destruct (get2_range _ _ _ _ _ _ R1 E1) as [W1 W2]. destruct (NM y0 x0 _ _ E1 E2) as [_ N2]. destruct (N2 _ _ HP) as (a & b & Em & Ne). destruct (nearest_in _ _ _ _ _ _ _ GI Ne) as [Ha Hb].
    exists 0, y0, x0, (d_e d - 1). split; [lia|]. split; [repeat split; lia|]. unfold nearest_value. rewrite Em. cbn [bind]. rewrite !ivalid_nonneg by lia. cbn [andb]. unfold get4. destruct (shaped_nth di ifs 0 SI) as (f & Ef & Sf); [lia|]. rewrite Ef. cbn [bind]. unfold f_get, f_index. destruct Sf as (_ & _ & _ & ->). replace (d_e d - 1 <? d_e di) with false by lia. rewrite andb_false_r. reflexivity.
Qed.
Lemma c168_times n d ofs core : n <> d_t d -> downscale n d ofs core = Ok (false, ofs).
Proof. intros H. unfold downscale. replace (n =? d_t d) with false by lia. reflexivity. Qed.
(** upscaling *)
Lemma present_filter l : present (filter cvalid l) = present l.
Proof.
  rewrite filter_cvalid. induction l as [|v l IH]; [reflexivity|]. rewrite present_cons. destruct v; auto. destruct (Qc_eq_dec q missing_number) as [->|n]; [exact IH|]. cbn [map]. rewrite present_cons. destruct (Qc_eq_dec q missing_number); [contradiction|]. congruence.
Qed.
Definition feed (m : list (list (Z * Z))) (i j : Z) (p : Z * Z) : bool := match get2 m (fst p) (snd p) with Ok (a, b) => (a =? i) && (b =? j) | _ => false end.
Definition points (ny nx : Z) : list (Z * Z) := flat_map (fun i => map (fun j => (i, j)) (zrange 0 nx)) (zrange 0 ny).
Definition at4 (fs : list field) (t e : Z) (p : Z * Z) : val := match get4 fs t (fst p) (snd p) e with Ok v => v | _ => NaN end.
Lemma flat_map_points {B} (g : Z * Z -> list B) ny nx : flat_map (fun i => flat_map (fun j => g (i, j)) (zrange 0 nx)) (zrange 0 ny) = flat_map g (points ny nx).
Proof.
  unfold points. induction (zrange 0 ny) as [|i l IH]; cbn [flat_map]; [reflexivity|]. rewrite flat_map_app, <- IH. f_equal. clear IH. induction (zrange 0 nx) as [|j l' IH']; cbn; [reflexivity|]. rewrite IH'. reflexivity.
Qed.
Lemma flat_map_filter {A} (sel : A -> bool) (f : A -> val) l : flat_map (fun p => if sel p then (if cvalid (f p) then [f p] else []) else []) l = filter cvalid (map f (filter sel l)).
Proof. induction l as [|p l IH]; cbn; [reflexivity|]. destruct (sel p); cbn; [|exact IH]. destruct (cvalid (f p)); cbn; rewrite IH; reflexivity. Qed.
Lemma upscale_values_ok di ifs m t i j e : shaped di ifs -> 0 < d_y di -> 0 < d_x di -> rect (d_y di) (d_x di) m -> 0 <= t < d_t di -> 0 <= e < d_e di ->
  upscale_values m ifs t i j e = Ok (filter cvalid (map (at4 ifs t e) (filter (feed m i j) (points (d_y di) (d_x di))))).
Proof.
  intros S Hy Hx Rm Ht He. unfold upscale_values. assert (zlen m = d_y di) as -> by apply Rm. rewrite <- flat_map_filter.
  pose proof (flat_map_points (fun p => if feed m i j p then if cvalid (at4 ifs t e p) then [at4 ifs t e p] else [] else []) (d_y di) (d_x di)) as FP. rewrite <- FP.
  rewrite (foldM_collect _ (fun ii => flat_map (fun jj => if feed m i j (ii, jj) then if cvalid (at4 ifs t e (ii, jj)) then [at4 ifs t e (ii, jj)] else [] else []) (zrange 0 (d_x di)))); [reflexivity|].
  intros ii acc Hii. apply in_zrange in Hii. destruct (znth_some m 0) as [row Hr]; [destruct Rm; lia|]. rewrite Hr. cbn [bind]. rewrite (proj2 Rm row) by (eapply znth_In; eauto).
  apply foldM_collect. intros jj acc' Hjj. apply in_zrange in Hjj. unfold feed. cbn [fst snd]. destruct (rect_get2 _ _ m ii jj Rm) as [[a b] Eab]; auto. rewrite Eab. cbn [bind]. destruct ((a =? i) && (b =? j)); [|rewrite app_nil_r; reflexivity].
  destruct (shaped_elem di ifs t ii jj e S) as (v & _ & Ev); [lia|repeat split; lia|]. unfold at4. cbn [fst snd]. rewrite Ev. cbn [bind]. destruct (cvalid v); [reflexivity|rewrite app_nil_r; reflexivity].
Qed.
Lemma in_points_iff ny nx p : In p (points ny nx) <-> 0 <= fst p < ny /\ 0 <= snd p < nx.
Proof. destruct p as [a b]. apply in_points. Qed.
Lemma c169 D srt E st (q : Qc) di d ilats ilons olats olons ifs ofs : zero_at_itself D -> straight D -> sorts_items srt -> file_grid (d_y di) (d_x di) ilats ilons -> file_grid (d_y d) (d_x d) olats olons ->
  (exists i j la lo, point olats olons i j la lo) -> shaped di ifs -> shaped d ofs -> d_t di = d_t d -> d_e d <= d_e di -> (st = CQuantile -> 0 <= q <= 1)%Qc ->
  exists m out, downscale (d_t di) d ofs (upscale (lift4 D) srt E st (Fin q) ilats ilons olats olons ifs) = Ok (true, out) /\ shaped d out /\
  nearest_map D olats olons (d_y di) (d_x di) ilats ilons m /\
  forall t y x e, 0 <= t < d_t d -> within d y x e -> exists l vs w,
    NoDup l /\ (forall p, In p l <-> get2 m (fst p) (snd p) = Ok (y, x)) /\ values_at ifs t e l vs /\ element out t y x e w /\ client_statistic E st q (present vs) w.
Proof.
  intros HZ HSt HS HI HO HX SI SO HT HE Hq. destruct (tree_map D srt (d_y d) (d_x d) (d_y di) (d_x di) olats olons ilats ilons HZ HSt HS HO HI HX) as (tr & m & Et & Em & Nm). pose proof HI as ((Hy & Hx & R1 & R2) & _). pose proof Nm as [Rm _].
  unfold downscale. rewrite HT, Z.eqb_refl. cbn [negb]. unfold upscale. rewrite Et. cbn [bind]. rewrite (num_x_rect (d_y di) (d_x di)) by auto. cbn [bind]. assert (zlen ilats = d_y di) as -> by apply R1. rewrite Em. cbn [bind]. unfold upscale_downscaler.
  match goal with |- context [write_elements d ofs ?v] => destruct (write_ok d ofs v (fun t y x e w => client_statistic E st q (present (map (at4 ifs t e) (filter (feed m y x) (points (d_y di) (d_x di))))) w) SO) as (out & Eo & S & P) end.
  { intros t y x e Ht (W1 & W2 & W3). rewrite (upscale_values_ok di) by (auto; lia). cbn [bind]. match goal with |- context [calculate_stat E ?l st (Fin q)] => destruct (stat_spec E l st q Hq) as (w & Ew & Sw) end. rewrite present_filter in Sw. eauto. }
  rewrite Eo. cbn [bind]. exists m, out. split; [reflexivity|]. split; [exact S|]. split; [exact Nm|]. intros t y x e Ht W. destruct (P t y x e Ht W) as (w & Ew & Sw). exists (filter (feed m y x) (points (d_y di) (d_x di))), (map (at4 ifs t e) (filter (feed m y x) (points (d_y di) (d_x di)))), w.
  assert (HP : forall p, In p (filter (feed m y x) (points (d_y di) (d_x di))) <-> get2 m (fst p) (snd p) = Ok (y, x)).
  { intros p. rewrite filter_In, in_points_iff. unfold feed. split.
    - intros [_ H]. destruct (get2 m (fst p) (snd p)) as [[a b]| | |]; try discriminate. apply andb_true_iff in H as [H1 H2]. f_equal. f_equal; lia.
    - intros H. split; [eapply get2_range; eauto|]. rewrite H, !Z.eqb_refl. reflexivity. }
  split; [apply NoDup_filter; apply NoDup_points|]. split; [exact HP|]. split; [|auto].
  unfold values_at. assert (K : forall p, In p (filter (feed m y x) (points (d_y di) (d_x di))) -> element ifs t (fst p) (snd p) e (at4 ifs t e p)).
  { intros p Hp. apply filter_In in Hp as [Hp _]. apply in_points_iff in Hp as [P1 P2]. destruct W as (_ & _ & W3). destruct (shaped_elem di ifs t (fst p) (snd p) e SI) as (v & Ev & Gv); [lia|repeat split; lia|]. unfold at4. rewrite Gv. exact Ev. }
  clear - K. induction (filter (feed m y x) (points (d_y di) (d_x di))) as [|p l IH]; cbn [map]; constructor; [apply K; left; auto|apply IH; intros; apply K; right; auto].
Qed.
Lemma NoDup_app_left {A} (l m : list A) : NoDup (l ++ m) -> NoDup l.
Proof. induction l as [|a l IH]; intros H; [constructor|]. inversion H as [|? ? H1 H2]; subst. constructor; [intros K; apply H1; apply in_or_app; auto|auto]. Qed.
(** smart neighbours *)
Lemma window_points ny nx r a b p : In p (flat_map (fun ii => map (fun jj => (ii, jj)) (zrange (Z.max 0 (b - r)) (Z.min (nx - 1) (b + r) + 1))) (zrange (Z.max 0 (a - r)) (Z.min (ny - 1) (a + r) + 1))) <-> close ny nx r a b p.
Proof.
  rewrite in_flat_map. unfold close. split.
  - intros (ii & Hi & H). apply in_map_iff in H as (jj & <- & Hj). apply in_zrange in Hi, Hj. cbn [fst snd]. lia.
  - intros (H1 & H2 & H3 & H4). exists (fst p). split; [apply in_zrange; lia|]. apply in_map_iff. exists (snd p). split; [destruct p; reflexivity|apply in_zrange; lia].
Qed.
Lemma NoDup_window A B : NoDup A -> NoDup B -> NoDup (flat_map (fun ii : Z => map (fun jj : Z => (ii, jj)) B) A).
Proof.
  intros HA HB. apply NoDup_flat_map; auto.
  - intros a _. apply FinFun.Injective_map_NoDup; auto. intros x y [= ->]. reflexivity.
  - intros a b x _ _ H1 H2. apply in_map_iff in H1 as (? & <- & _). apply in_map_iff in H2 as (? & [= -> ->] & _). reflexivity.
Qed.
Lemma firstn_znth {A} (l : list A) n i a : znth (firstn n l) i = Ok a -> znth l i = Ok a /\ i < Z.of_nat n.
Proof.
  intros H. assert (i < Z.of_nat n). { pose proof (znth_range _ _ _ H) as K. unfold zlen in K. pose proof (firstn_le_length n l). lia. }
  split; [|auto]. rewrite <- (firstn_skipn n l). rewrite znth_app_l; [exact H|]. apply znth_range in H. lia.
Qed.
Lemma skipn_in {A} (l : list A) n a : In a l -> ~ In a (firstn n l) -> exists i, znth l i = Ok a /\ Z.of_nat n <= i.
Proof.
  intros H N. apply In_znth in H as [i Hi]. exists i. split; [exact Hi|]. destruct (Z_lt_le_dec i (Z.of_nat n)); [|auto]. exfalso. apply N. apply (znth_In _ i). pose proof (znth_range _ _ _ Hi) as K.
  rewrite <- (firstn_skipn n l) in Hi. assert (L : i < zlen (firstn n l)). { unfold zlen in *. rewrite firstn_length. lia. } rewrite znth_app_l in Hi by lia. exact Hi.
Qed.
Lemma perm_index {A} (pts : list A) (ds : list val) (s : list (val * Z)) (df : A) : zlen ds = zlen pts -> Permutation s (combine ds (zrange 0 (zlen pts))) ->
  Permutation (map (fun p => match znth pts (snd p) with Ok a => a | _ => df end) s) pts.
Proof.
  intros HL HP. apply (Permutation_map (fun p => match znth pts (snd p) with Ok a => a | _ => df end)) in HP. eapply Permutation_trans; [exact HP|]. clear HP s.
  assert (E : map (fun p : val * Z => match znth pts (snd p) with Ok a => a | _ => df end) (combine ds (zrange 0 (zlen pts))) = pts).
  { assert (K : forall l (d : list val), length d = length l -> map (fun p : val * Z => match znth pts (snd p) with Ok a => a | _ => df end) (combine d l) = map (fun i => match znth pts i with Ok a => a | _ => df end) l).
    { induction l as [|x l IH]; intros [|y d] Hd; cbn in *; try lia; [reflexivity|]. f_equal. apply IH. lia. }
    rewrite K. 2:{ unfold zlen in *. pose proof (zlen_zrange 0 (Z.of_nat (length pts))) as Z1. unfold zlen in Z1. lia. }
    apply znth_ext. - rewrite zlen_map, zlen_zrange. pose proof (zlen_nonneg pts). lia.
    - intros i Hi. rewrite zlen_map, zlen_zrange in Hi. rewrite znth_map_zrange by lia. rewrite ?Z.add_0_l. destruct (znth_some pts i) as [a Ha]; [lia|]. rewrite Ha. reflexivity. }
  rewrite E. apply Permutation_refl.
Qed.
Lemma vabs_sub a b : vabs (vsub (Fin a) (Fin b)) = Fin (qabs (a - b)%Qc).
Proof. unfold vsub, vneg, vadd, vabs, qabs. change (a - b)%Qc with (a + - b)%Qc. destruct (qltb (a + - b) 0); reflexivity. Qed.
Lemma smart_points sortp radius num minElevDiff ny nx ielevs oelevs m i j a b oelev nn : sorts_pairs sortp -> rect ny nx ielevs -> get2 m i j = Ok (a, b) -> 0 <= a < ny -> 0 <= b < nx -> get2 oelevs i j = Ok oelev -> get2 ielevs a b = Ok nn -> 0 <= num -> 0 <= radius ->
  exists l, smart_neighbours sortp radius num minElevDiff ny nx ielevs oelevs m i j = Ok l /\ Forall (fun p => 0 <= fst p < ny /\ 0 <= snd p < nx) l /\
    (missing oelev \/ no_elev_diff minElevDiff oelev nn -> l = [(a, b)]) /\
    (forall o, oelev = Fin o -> o <> missing_number -> ~ no_elev_diff minElevDiff oelev nn -> most_similar ny nx radius num a b ielevs o l).
Proof.
  intros HS RI Em Ha Hb Eo En Hnum Hrad. unfold smart_neighbours. rewrite Em. cbn [bind]. rewrite Eo, En. cbn [bind].
  set (small := cvalid nn && cvalid minElevDiff && vleb (vabs (vsub oelev nn)) minElevDiff).
  destruct (negb (cvalid oelev) || small) eqn:C.
  { exists [(a, b)]. split; [reflexivity|]. split; [constructor; [cbn; lia|constructor]|]. split; [reflexivity|]. intros o -> no HN. exfalso. rewrite cvalid_Fin in C by auto. cbn [negb orb] in C. unfold small in C. apply andb_true_iff in C as [C C3]. apply andb_true_iff in C as [C1 C2].
    apply cvalid_true in C1 as (n & -> & nn'). apply cvalid_true in C2 as (dd & -> & nd). apply HN. exists o, n, dd. rewrite vabs_sub, vleb_Fin in C3. destruct (qleb_spec (qabs (o - n)) dd); [|discriminate]. auto 10. }
  apply orb_false_iff in C as [C1 C2]. apply negb_false_iff in C1. apply cvalid_true in C1 as (o & -> & no).
  assert (NS : ~ no_elev_diff minElevDiff (Fin o) nn). { intros (o' & n & dd & [= <-] & _ & -> & nn' & -> & nd & K). unfold small in C2. rewrite !cvalid_Fin in C2 by auto. rewrite vabs_sub, vleb_Fin in C2. destruct (qleb_spec (qabs (o - n)) dd); [discriminate|qlra]. }
  set (pts := flat_map _ _). assert (PI : forall p, In p pts <-> close ny nx radius a b p) by (intros p; apply window_points). assert (PN : NoDup pts) by (apply NoDup_window; apply NoDup_zrange).
  destruct (mapM_total (fun p => ielev <- get2 ielevs (fst p) (snd p) ;; Ok (if cvalid ielev then vabs (vsub ielev (Fin o)) else fz 10000000000)) (fun p v => exists q, v = Fin q /\ elev_diff ielevs o p q) pts) as (ds & Ed & Ld & Nd).
  { intros p Hp. apply PI in Hp as (P1 & P2 & _). destruct (rect_get2 ny nx ielevs (fst p) (snd p) RI P1 P2) as [v Hv]. rewrite Hv. cbn [bind]. eexists. split; [reflexivity|]. destruct (cvalid v) eqn:V.
    - apply cvalid_true in V as (x & -> & nx'). rewrite vabs_sub. eexists. split; [reflexivity|]. exists (Fin x). split; [exact Hv|]. right. eauto.
    - eexists. split; [reflexivity|]. exists v. split; [exact Hv|]. left. split; [apply cvalid_missing; exact V|reflexivity]. }
  rewrite Ed. cbn [bind]. cbv zeta. set (raw := combine ds (zrange 0 (zlen pts))). assert (FN : Forall (fun p => fst p <> NaN) raw).
  { apply Forall_forall. intros [v k] Hp. apply in_combine_l in Hp. apply In_znth in Hp as [k' Hk]. pose proof (znth_range _ _ _ Hk). destruct (znth_some pts k') as [p Hp]; [lia|]. destruct (Nd k' p Hp) as (w & W1 & _ & q & -> & _). cbn. congruence. }
  destruct (HS raw FN) as [PM SS]. set (s := sortp raw) in *. assert (LS : zlen s = zlen pts). { unfold zlen. rewrite (Permutation_length PM). unfold raw. rewrite combine_length. unfold zlen in Ld. pose proof (zlen_zrange 0 (zlen pts)) as Z1. unfold zlen in Z1 |- *. lia. }
  assert (HC : close ny nx radius a b (a, b)) by (repeat split; cbn; lia). assert (Hpos : 0 < zlen pts). { apply PI in HC. destruct pts; [contradiction|]. rewrite zlen_cons. pose proof (zlen_nonneg pts). lia. }
  replace (zlen s =? 0) with false by lia. replace (Z.min (zlen s) num <? 0) with false by lia. set (N := Z.min (zlen s) num).
  set (pt := fun p : val * Z => match znth pts (snd p) with Ok x => x | _ => (0, 0) end). assert (PF : Permutation (map pt s) pts) by (apply (perm_index pts ds s); auto).
  assert (RG : forall n d k, znth s n = Ok (d, k) -> exists p q, znth pts k = Ok p /\ pt (d, k) = p /\ d = Fin q /\ elev_diff ielevs o p q).
  { intros n d k Hn. apply znth_In in Hn. apply (Permutation_in _ PM) in Hn. apply In_znth in Hn as [u Hu]. pose proof (znth_range _ _ _ Hu) as Ru. assert (Lr : zlen raw = zlen pts). { unfold zlen. rewrite <- (Permutation_length PM). exact LS. }
    destruct (znth_some ds u) as [d' Hd]; [lia|]. assert (Hz : znth (zrange 0 (zlen pts)) u = Ok u) by (apply znth_zrange; lia). pose proof (combine_znth _ _ _ _ _ Hd Hz) as HCm. fold raw in HCm. rewrite HCm in Hu. injection Hu as -> ->.
    destruct (znth_some pts k) as [p Hp]; [lia|]. destruct (Nd k p Hp) as (w & W1 & _ & q & -> & EDf). rewrite Hd in W1. injection W1 as ->. exists p, q. split; [exact Hp|]. split; [unfold pt; cbn; rewrite Hp; reflexivity|]. auto. }
  assert (EM : mapM (fun n => '(_, index) <- znth s n ;; znth pts index) (zrange 0 N) = Ok (firstn (Z.to_nat N) (map pt s))).
  { destruct (mapM_total (fun n => '(_, index) <- znth s n ;; znth pts index) (fun n p => znth (map pt s) n = Ok p) (zrange 0 N)) as (L & EL & LL & NL).
    - intros n Hn. apply in_zrange in Hn. destruct (znth_some s n) as [[d k] Hs]; [lia|]. rewrite Hs. cbn [bind]. destruct (RG n d k Hs) as (p & q & Hp & Hpt & _). exists p. split; [exact Hp|]. rewrite znth_map, Hs. cbn. congruence.
    - rewrite EL. f_equal. rewrite zlen_zrange in LL. apply znth_ext. + unfold zlen in *. rewrite firstn_length, map_length. lia.
      + intros n Hn. destruct (NL n n) as (p & P1 & _ & P2); [apply znth_zrange; lia|]. rewrite P1. symmetry. rewrite <- (firstn_skipn (Z.to_nat N) (map pt s)) in P2. rewrite znth_app_l in P2; [exact P2|]. unfold zlen in *. rewrite firstn_length, map_length. lia. }
  rewrite EM. set (L := firstn (Z.to_nat N) (map pt s)). assert (LC : forall p, In p L -> close ny nx radius a b p). { intros p Hp. apply PI. apply (Permutation_in _ PF). rewrite <- (firstn_skipn (Z.to_nat N) (map pt s)). apply in_or_app. left. exact Hp. }
  exists L. split; [reflexivity|]. split; [apply Forall_forall; intros p Hp; destruct (LC p Hp) as (? & ? & _); auto|]. split; [intros [K|K]; [cbn in K; contradiction|contradiction]|].
  intros o' [= <-] _ _. assert (NDf : NoDup (map pt s)) by (eapply Permutation_NoDup; [apply Permutation_sym; exact PF|exact PN]).
  split. { rewrite <- (firstn_skipn (Z.to_nat N) (map pt s)) in NDf. apply NoDup_app_left in NDf. exact NDf. }
  split; [apply Forall_forall; exact LC|]. split; [|split].
  - intros p p' q q' Hp Hc' Hn' Dq Dq'. apply In_znth in Hp as [n Hn]. apply firstn_znth in Hn as [Hn Hlt]. apply PI in Hc'. apply (Permutation_in _ (Permutation_sym PF)) in Hc'. destruct (skipn_in _ _ _ Hc' Hn') as (n' & Hn'' & Hge).
    rewrite znth_map in Hn, Hn''. destruct (znth s n) as [[d k]| | |] eqn:E1; try discriminate. destruct (znth s n') as [[d' k']| | |] eqn:E2; try discriminate. cbn in Hn, Hn''. destruct (RG _ _ _ E1) as (p1 & q1 & _ & P1 & -> & D1). destruct (RG _ _ _ E2) as (p2 & q2 & _ & P2 & -> & D2).
    injection Hn as Hn. injection Hn'' as Hn''. rewrite P1 in Hn. rewrite P2 in Hn''. subst p1 p2.
    assert (EU : forall x u v, elev_diff ielevs o x u -> elev_diff ielevs o x v -> u = v). { intros x u v (v1 & V1 & A1) (v2 & V2 & A2). rewrite V1 in V2. injection V2 as <-. destruct A1 as [[M1 ->]|(x1 & -> & n1 & ->)]; destruct A2 as [[M2 ->]|(x2 & E & n2 & ->)]; auto; try (subst v1; cbn in M1; contradiction); try (cbn in M2; contradiction). injection E as <-. reflexivity. }
    rewrite (EU p q q1 Dq D1), (EU p' q' q2 Dq' D2). assert (K : vltb (Fin q2) (Fin q1) = false). { apply (sorted_znth _ _ SS n n' (Fin q1, k) (Fin q2, k')); auto. lia. } apply vltb_F_false in K. exact K.
  - unfold L, zlen. rewrite firstn_length. lia.
  - intros HLt p Hp. apply PI in Hp. apply (Permutation_in _ (Permutation_sym PF)) in Hp. unfold L. rewrite firstn_all2; [exact Hp|]. unfold L, zlen in HLt. rewrite firstn_length, map_length in HLt. rewrite map_length. unfold N, zlen in *. lia.
Qed.
Lemma qmean_fold l : forall fs t e vs total count, values_at fs t e l vs -> Forall (fun p => 0 <= fst p /\ 0 <= snd p) l ->
  foldM (fun st p => let '(total, count) := st in let '(ii, jj) := p in
    if ivalid ii && ivalid jj then value <- get4 fs t ii jj e ;; Ok (if cvalid value then (vadd total value, count + 1) else st) else Ok st) (Fin total, count) l =
  Ok (Fin (total + qsum (present vs))%Qc, count + zlen (present vs)).
Proof.
  induction l as [|[a b] l IH]; intros fs t e vs total count HV HF; inversion HV as [|? v ? vs' E HV']; subst; cbn [foldM].
  - change (present []) with (@nil Qc). cbn [qsum]. change (zlen (@nil Qc)) with 0. rewrite Z.add_0_r. do 2 f_equal. f_equal. cbn. ring.
  - inversion HF as [|? ? [F1 F2] HF']; subst. cbn [fst snd] in *. rewrite !ivalid_nonneg by lia. cbn [andb]. apply element_get in E. rewrite E. cbn [bind]. rewrite present_cons. destruct (cvalid v) eqn:V.
    + apply cvalid_true in V as (q & -> & nq). destruct (Qc_eq_dec q missing_number); [contradiction|]. cbn [vadd]. rewrite (IH fs t e vs' (total + q)%Qc (count + 1) HV' HF'). rewrite zlen_cons. do 2 f_equal; [|lia]. f_equal. cbn [qsum]. unfold qsum. cbn. ring.
    + assert (EP : present (v :: vs') = present vs'). { rewrite present_cons. destruct v; auto. destruct (Qc_eq_dec q missing_number); [auto|]. rewrite cvalid_Fin in V by auto. discriminate. } rewrite present_cons in EP. rewrite EP. apply IH; auto.
Qed.
Lemma c170 D sortp radius num minElevDiff di d ilats ilons ielevs olats olons oelevs m ifs ofs : sorts_pairs sortp -> grid (d_y di) (d_x di) ilats ilons -> rect (d_y di) (d_x di) ielevs -> grid (d_y d) (d_x d) olats olons -> rect (d_y d) (d_x d) oelevs ->
  nearest_map D ilats ilons (d_y d) (d_x d) olats olons m -> (forall y x, 0 <= y < d_y d -> 0 <= x < d_x d -> exists lat lon, point olats olons y x lat lon) ->
  shaped di ifs -> shaped d ofs -> d_t di = d_t d -> d_e d <= d_e di -> 0 <= num -> 0 <= radius ->
  exists out, downscale (d_t di) d ofs (smart_downscaler sortp radius num minElevDiff (d_y di) (d_x di) ielevs oelevs m ifs) = Ok (true, out) /\ shaped d out /\
  forall y x lat lon oelev, point olats olons y x lat lon -> get2 oelevs y x = Ok oelev -> exists a b nn l, is_nearest (D lat lon) ilats ilons a b /\ get2 ielevs a b = Ok nn /\
    (missing oelev \/ no_elev_diff minElevDiff oelev nn -> l = [(a, b)]) /\
    (forall o, oelev = Fin o -> o <> missing_number -> ~ no_elev_diff minElevDiff oelev nn -> most_similar (d_y di) (d_x di) radius num a b ielevs o l) /\
    forall t e, 0 <= t < d_t d -> 0 <= e < d_e d -> exists vs w, values_at ifs t e l vs /\ element out t y x e w /\
      (present vs = [] -> w = Fin missing_number) /\ (present vs <> [] -> w = Fin (qmean (present vs))).
Proof.
  intros HS GI RI GO RO [Rm NM] HV SI SO HT HE Hnum Hrad. unfold downscale. rewrite HT, Z.eqb_refl. cbn [negb]. pose proof GO as (Hy & Hx & R1 & R2). unfold smart_downscaler.
  destruct (map2_ok (d_y d) (d_x d) (fun i j => smart_neighbours sortp radius num minElevDiff (d_y di) (d_x di) ielevs oelevs m i j)
    (fun y x l => Forall (fun p => 0 <= fst p < d_y di /\ 0 <= snd p < d_x di) l /\ forall lat lon oelev, point olats olons y x lat lon -> get2 oelevs y x = Ok oelev -> exists a b nn, is_nearest (D lat lon) ilats ilons a b /\ get2 ielevs a b = Ok nn /\
    (missing oelev \/ no_elev_diff minElevDiff oelev nn -> l = [(a, b)]) /\
    (forall o, oelev = Fin o -> o <> missing_number -> ~ no_elev_diff minElevDiff oelev nn -> most_similar (d_y di) (d_x di) radius num a b ielevs o l))) as (nb & Enb & Rnb & Nnb); try lia.
  { intros y x Wy Wx. destruct (HV y x Wy Wx) as (lat & lon & HP). pose proof HP as (E1 & E2 & _). destruct (NM y x _ _ E1 E2) as [_ N2]. destruct (N2 lat lon HP) as (a & b & Em & Ne). destruct (nearest_in _ _ _ _ _ _ _ GI Ne) as [Ha Hb].
    destruct (rect_get2 _ _ oelevs y x RO Wy Wx) as [oe Eoe]. destruct (rect_get2 _ _ ielevs a b RI Ha Hb) as [nn Enn]. destruct (smart_points sortp radius num minElevDiff (d_y di) (d_x di) ielevs oelevs m y x a b oe nn) as (l & El & Fl & L1 & L2); auto.
    exists l. split; [exact El|]. split; [exact Fl|]. intros lat' lon' oe' HP' Eoe'. destruct (point_fun _ _ _ _ _ _ _ _ HP HP') as [<- <-]. rewrite Eoe in Eoe'. injection Eoe' as <-. exists a, b, nn. auto. }
  rewrite Enb. cbn [omp bind].
  assert (HVS : forall l t e, Forall (fun p => 0 <= fst p < d_y di /\ 0 <= snd p < d_x di) l -> 0 <= t < d_t d -> 0 <= e < d_e d -> exists vs, values_at ifs t e l vs).
  { induction l as [|p l IH]; intros t e HF Ht He; [exists []; constructor|]. inversion HF as [|? ? [F1 F2] HF']; subst. destruct (IH t e HF' Ht He) as [vs Hvs]. destruct (shaped_elem di ifs t (fst p) (snd p) e SI) as (v & Ev & _); [lia|repeat split; lia|]. exists (v :: vs). constructor; auto. }
  destruct (write_ok d ofs (smart_value nb ifs) (fun t y x e w => forall l, get2 nb y x = Ok l -> exists vs, values_at ifs t e l vs /\ (present vs = [] -> w = Fin missing_number) /\ (present vs <> [] -> w = Fin (qmean (present vs)))) SO) as (out & Eo & S & P).
  { intros t y x e Ht (W1 & W2 & W3). destruct (Nnb y x W1 W2) as (l & El & _ & Fl & _). destruct (HVS l t e Fl Ht W3) as [vs Hvs]. unfold smart_value. rewrite El. cbn [bind]. unfold fz at 1. rewrite (qmean_fold l ifs t e vs (qz 0) 0 Hvs). 2:{ eapply Forall_impl; [|exact Fl]. cbn. intros; lia. }
    cbn [bind]. eexists. split; [reflexivity|]. intros l' El'. injection El' as <-. exists vs. split; [exact Hvs|]. rewrite Z.add_0_l. split.
    - intros ->. reflexivity.
    - intros HN. assert (0 < zlen (present vs)). { destruct (present vs) as [|x0 l0]; [congruence|]. rewrite zlen_cons. pose proof (zlen_nonneg l0). lia. }
      replace (0 <? zlen (present vs)) with true by lia. unfold fz, vdiv. destruct (qeqb_spec (qz (zlen (present vs))) 0) as [E0|_]. { rewrite <- qz_0 in E0. apply qz_inj in E0. lia. } f_equal. unfold qmean, qlen. rewrite qz_0. f_equal. ring. }
  rewrite Eo. cbn [bind]. exists out. split; [reflexivity|]. split; [exact S|]. intros y x lat lon oelev HP Eoe. pose proof HP as (E1 & _). destruct (get2_range _ _ _ _ _ _ R1 E1) as [W1 W2]. destruct (Nnb y x W1 W2) as (l & El & _ & Fl & Hl). destruct (Hl lat lon oelev HP Eoe) as (a & b & nn & Ne & Enn & L1 & L2).
  exists a, b, nn, l. split; [exact Ne|]. split; [exact Enn|]. split; [exact L1|]. split; [exact L2|]. intros t e Ht He. destruct (P t y x e Ht) as (w & Ew & Vw); [repeat split; lia|]. destruct (Vw l El) as (vs & V1 & V2 & V3). eauto 6.
Qed.
(** a sorter *)
Fixpoint insert_pair (p : val * Z) (l : list (val * Z)) : list (val * Z) :=
  match l with [] => [p] | a :: t => if vltb (fst a) (fst p) then a :: insert_pair p t else p :: l end.
Definition sort_pairs (l : list (val * Z)) : list (val * Z) := fold_right insert_pair [] l.
Lemma insert_pair_perm p l : Permutation (insert_pair p l) (p :: l).
Proof. induction l as [|a l IH]; cbn; [apply Permutation_refl|]. destruct (vltb _ _); [|apply Permutation_refl]. apply (Permutation_trans (l' := a :: p :: l)); [constructor; exact IH|constructor]. Qed.
Lemma sort_pairs_ok : sorts_pairs sort_pairs.
Proof.
  intros l. induction l as [|it l IH]; intros HV; cbn [sort_pairs fold_right]; [split; constructor|]. inversion HV as [|? ? V1 V2]; subst. destruct (IH V2) as [P S]. fold (sort_pairs l). split.
  { apply (Permutation_trans (insert_pair_perm _ _)). constructor. exact P. }
  assert (VS : Forall (fun p : val * Z => fst p <> NaN) (sort_pairs l)) by (apply (Permutation_Forall (Permutation_sym P)); auto). clear P IH. induction (sort_pairs l) as [|a s IHs]; cbn [insert_pair]; [repeat constructor|].
  inversion S as [|? ? S1 S2]; subst. inversion VS as [|? ? A1 A2]; subst. destruct (vltb (fst a) (fst it)) eqn:L.
  - constructor; [apply IHs; auto|]. eapply Permutation_Forall; [apply Permutation_sym, insert_pair_perm|]. constructor; [|exact S2]. destruct (vltb (fst it) (fst a)) eqn:L'; auto. pose proof (num_lt_trans _ _ _ L L') as C. rewrite num_lt_irrefl in C. discriminate.
  - constructor; [constructor; auto|]. constructor; [exact L|]. rewrite Forall_forall in S2, A2 |- *. intros b Hb. specialize (S2 b Hb). specialize (A2 b Hb).
    destruct (vltb (fst b) (fst it)) eqn:L'; auto. exfalso. destruct (num_cases (fst a) (fst b)) as [(E & _)|[(_ & _ & L2 & _)|(_ & _ & _ & L2)]]; auto.
    + rewrite E in L. congruence.
    + rewrite (num_lt_trans _ _ _ L2 L') in L. discriminate.
    + congruence.
Qed.
Lemma c170_refuted : exists D sortp di d ilats ilons ielevs olats olons oelevs m ifs ofs, sorts_pairs sortp /\ grid (d_y di) (d_x di) ilats ilons /\ rect (d_y di) (d_x di) ielevs /\ grid (d_y d) (d_x d) olats olons /\ rect (d_y d) (d_x d) oelevs /\
  nearest_map D ilats ilons (d_y d) (d_x d) olats olons m /\ shaped di ifs /\ shaped d ofs /\ d_t di = d_t d /\ d_e d = d_e di /\
  downscale (d_t di) d ofs (smart_downscaler sortp 3 5 CMV (d_y di) (d_x di) ielevs oelevs m ifs) = UB.
Proof.
  assert (R1 : forall {A} (v : A), rect 1 1 [[v]]) by (intros A v; split; [reflexivity|intros r [<-|[]]; reflexivity]).
  exists (fun _ _ _ _ => 0%Qc), sort_pairs, (dims1 1), (dims1 1), [[fz 60]], [[fz 10]], [[fz 0]], [[NaN]], [[NaN]], [[fz 0]], [[(-999, -999)]], [field1 (fz 1)], [field1 CMV].
  split; [exact sort_pairs_ok|]. split; [repeat split; try lia; apply R1|]. split; [apply R1|]. split; [repeat split; try lia; apply R1|]. split; [apply R1|]. split.
  { split; [apply R1|]. intros i j la lo E1 E2. destruct (get2_range _ 1 1 i j _ (R1 _ NaN) E1) as [Hi Hj]. assert (i = 0) by lia. assert (j = 0) by lia. subst. split; [reflexivity|]. intros lat lon (K & _). vm_compute in K. discriminate. }
  split; [apply (shaped1 [fz 1])|]. split; [apply (shaped1 [CMV])|]. split; [reflexivity|]. split; [reflexivity|]. reflexivity.
Qed.
(** pressure *)
Lemma c171 D (expo : Qc -> Qc) di d ilats ilons ielevs olats olons oelevs m ifs ofs : grid (d_y di) (d_x di) ilats ilons -> rect (d_y di) (d_x di) ielevs -> grid (d_y d) (d_x d) olats olons -> rect (d_y d) (d_x d) oelevs ->
  nearest_map D ilats ilons (d_y d) (d_x d) olats olons m -> shaped di ifs -> shaped d ofs -> d_t di = d_t d -> d_e d <= d_e di ->
  ((forall y x, 0 <= y < d_y d -> 0 <= x < d_x d -> exists lat lon, point olats olons y x lat lon) ->
   exists out, downscale (d_t di) d ofs (pressure_downscaler (lift1 expo) ielevs oelevs m ifs) = Ok (true, out) /\ shaped d out /\
   forall y x lat lon oelev, point olats olons y x lat lon -> get2 oelevs y x = Ok oelev -> exists a b nn, is_nearest (D lat lon) ilats ilons a b /\ get2 ielevs a b = Ok nn /\
    forall t e, 0 <= t < d_t d -> 0 <= e < d_e d -> exists p w, element ifs t a b e p /\ element out t y x e w /\
      (missing oelev \/ missing nn -> w = p) /\
      (~ missing oelev -> ~ missing nn -> missing p -> w = Fin missing_number) /\
      (forall o n q, oelev = Fin o -> nn = Fin n -> p = Fin q -> ~ missing oelev -> ~ missing nn -> ~ missing p -> w = Fin (q * expo (Q2Qc (-121 # 1000000) * (o - n)))%Qc)) /\
  ((exists y x, 0 <= y < d_y d /\ 0 <= x < d_x d /\ forall lat lon, ~ point olats olons y x lat lon) -> 0 < d_t d -> 0 < d_e d ->
   downscale (d_t di) d ofs (pressure_downscaler (lift1 expo) ielevs oelevs m ifs) = Abort).
Proof.
  intros GI RI GO RO [Rm NM] SI SO HT HE. unfold downscale. rewrite HT, Z.eqb_refl. cbn [negb]. pose proof GO as (Hy & Hx & R1 & R2). unfold pressure_downscaler.
  assert (VAL : forall t y x e a b oelev nn p, get2 m y x = Ok (a, b) -> 0 <= a < d_y di -> 0 <= b < d_x di -> get2 oelevs y x = Ok oelev -> get2 ielevs a b = Ok nn -> get4 ifs t a b e = Ok p ->
    pressure_value (lift1 expo) ielevs oelevs m ifs t y x e = Ok (if negb (cvalid oelev) || negb (cvalid nn) then p else calc_pressure (lift1 expo) nn p oelev)).
  { intros t y x e a b oelev nn p Em Ha Hb Eo En Ep. unfold pressure_value. rewrite Em. cbn [bind]. rewrite (proj1 RI). replace ((0 <=? a) && (a <? d_y di)) with true by lia. cbn [negb]. unfold get2 in En. apply bind_Ok in En as (row & Hr & En). rewrite Hr. cbn [bind].
    rewrite (proj2 RI row) by (eapply znth_In; eauto). replace ((0 <=? b) && (b <? d_x di)) with true by lia. cbn [negb]. rewrite Eo, En, Ep. reflexivity. }
  assert (BAD : forall t y x e, get2 m y x = Ok (-999, -999) -> pressure_value (lift1 expo) ielevs oelevs m ifs t y x e = Abort).
  { intros t y x e Em. unfold pressure_value. rewrite Em. cbn [bind]. reflexivity. }
  assert (PT : forall y x lat lon, point olats olons y x lat lon -> exists a b oelev nn, is_nearest (D lat lon) ilats ilons a b /\ get2 m y x = Ok (a, b) /\ 0 <= a < d_y di /\ 0 <= b < d_x di /\ get2 oelevs y x = Ok oelev /\ get2 ielevs a b = Ok nn).
  { intros y x lat lon HP. pose proof HP as (E1 & E2 & _). destruct (get2_range _ _ _ _ _ _ R1 E1) as [W1 W2]. destruct (NM y x _ _ E1 E2) as [_ N2]. destruct (N2 lat lon HP) as (a & b & Em & Ne). destruct (nearest_in _ _ _ _ _ _ _ GI Ne) as [Ha Hb].
    destruct (rect_get2 _ _ oelevs y x RO W1 W2) as [oe Eoe]. destruct (rect_get2 _ _ ielevs a b RI Ha Hb) as [nn Enn]. exists a, b, oe, nn. auto 10. }
  split.
  - intros HV.
    destruct (write_ok d ofs (pressure_value (lift1 expo) ielevs oelevs m ifs) (fun t y x e w => pressure_value (lift1 expo) ielevs oelevs m ifs t y x e = Ok w) SO) as (out & Eo & S & P).
    { intros t y x e Ht (W1 & W2 & W3). destruct (HV y x W1 W2) as (lat & lon & HP). destruct (PT y x lat lon HP) as (a & b & oe & nn & _ & Em & Ha & Hb & Eoe & Enn). destruct (shaped_elem di ifs t a b e SI) as (p & _ & Ep); [lia|repeat split; lia|]. rewrite (VAL t y x e a b oe nn p) by auto. eauto. }
    rewrite Eo. cbn [bind]. exists out. split; [reflexivity|]. split; [exact S|]. intros y x lat lon oelev HP Eoe. pose proof HP as (E1 & _). destruct (get2_range _ _ _ _ _ _ R1 E1) as [W1 W2].
    destruct (PT y x lat lon HP) as (a & b & oe & nn & Ne & Em & Ha & Hb & Eoe' & Enn). rewrite Eoe in Eoe'. injection Eoe' as <-. exists a, b, nn. split; [exact Ne|]. split; [exact Enn|]. intros t e Ht He.
    destruct (shaped_elem di ifs t a b e SI) as (p & Ep & Gp); [lia|repeat split; lia|]. destruct (P t y x e Ht) as (w & Ew & Vw); [repeat split; lia|]. rewrite (VAL t y x e a b oelev nn p) in Vw by auto. injection Vw as <-.
    exists p, (if negb (cvalid oelev) || negb (cvalid nn) then p else calc_pressure (lift1 expo) nn p oelev). split; [exact Ep|]. split; [exact Ew|]. split; [|split].
    + intros [K|K]; apply cvalid_missing in K; rewrite K; [reflexivity|rewrite orb_true_r; reflexivity].
    + intros K1 K2 K3. apply cvalid_missing in K3. rewrite <- cvalid_missing in K1, K2. destruct (cvalid oelev); [|congruence]. destruct (cvalid nn) eqn:V; [|congruence]. cbn [negb orb]. unfold calc_pressure. rewrite K3, V. reflexivity.
    + intros o n q -> -> -> K1 K2 K3. rewrite <- cvalid_missing in K1, K2, K3. destruct (cvalid (Fin o)) eqn:V1; [|congruence]. destruct (cvalid (Fin n)) eqn:V2; [|congruence]. destruct (cvalid (Fin q)) eqn:V3; [|congruence]. cbn [negb orb]. unfold calc_pressure. rewrite V1, V2, V3. reflexivity.
  - intros (y0 & x0 & W1 & W2 & HN) H0 HE0. rewrite write_abort; auto.
    + intros t y x e Ht (A1 & A2 & A3). destruct (rect_get2 _ _ olats y x R1 A1 A2) as [la E1]. destruct (rect_get2 _ _ olons y x R2 A1 A2) as [lo E2]. destruct (NM y x la lo E1 E2) as [N1 _].
      destruct (outcome_cases la lo) as [K|[K|(lat & lon & -> & -> & n1 & n2)]]; [right; apply BAD; auto|right; apply BAD; auto|]. left. destruct (PT y x lat lon) as (a & b & oe & nn & _ & Em & Ha & Hb & Eoe & Enn); [repeat split; auto|]. destruct (shaped_elem di ifs t a b e SI) as (p & _ & Ep); [lia|repeat split; lia|]. rewrite (VAL t y x e a b oe nn p) by auto. eauto.
    + exists 0, y0, x0, 0. split; [lia|]. split; [repeat split; lia|]. apply BAD. destruct (rect_get2 _ _ olats y0 x0 R1 W1 W2) as [la E1]. destruct (rect_get2 _ _ olons y0 x0 R2 W1 W2) as [lo E2]. destruct (NM y0 x0 la lo E1 E2) as [N1 _]. apply N1.
      destruct (outcome_cases la lo) as [K|[K|(lat & lon & -> & -> & n1 & n2)]]; auto. exfalso. apply (HN lat lon). repeat split; auto.
Qed.
