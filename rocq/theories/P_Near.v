(** C42: nearest. *)
From Verif Require Import Base ListLib M_Geo M_Near S_Geo S_Near P_Geo P_Neighbours P_Grid P_Points.

Lemma omp_ok {A} (r : res A) a : r = Ok a -> omp r = Ok a.
Proof. intros ->. reflexivity. Qed.
Lemma rect_pair {A B} Y X (a : list (list A)) (b : list (list B)) i j x : rect Y X a -> rect Y X b ->
  get2 a i j = Ok x -> exists y, get2 b i j = Ok y.
Proof. intros Ha Hb H. destruct (get2_range _ _ _ _ _ _ Ha H). eapply rect_get2; eauto. Qed.
Lemma valid_get2 t lats i j la : valid_all2 t lats -> get2 lats i j = Ok la -> valid_loc t la.
Proof.
  intros H Hg. unfold get2 in Hg. apply bind_Ok in Hg as (r & Hr & Hx). unfold valid_all2 in H.
  rewrite Forall_forall in H. specialize (H _ (znth_In _ _ _ Hr)). rewrite Forall_forall in H. apply H. eapply znth_In; eauto.
Qed.
Lemma valid_znth t las i la : valid_all t las -> znth las i = Ok la -> valid_loc t la.
Proof. intros H Hg. unfold valid_all in H. rewrite Forall_forall in H. apply H. eapply znth_In; eauto. Qed.

(** loops over the output grid and the output points *)
Section Out.
Context {A : Type}.
Lemma out_grid G t Y X lats lons og (F : val -> val -> res A) (init : A) : is_grid G t Y X lats lons og ->
  (forall i j la lo, get2 lats i j = Ok la -> get2 lons i j = Ok lo -> exists x, F (Fin la) (Fin lo) = Ok x) ->
  exists out, omp (for2 Y X (init2 Y X init) (fun i j => '(lat, lon) <- out_loc og i j ;; F lat lon)) = Ok out /\
    rect Y X out /\ on_grid lats lons (fun la lo => F (Fin la) (Fin lo)) out.
Proof.
  intros H HF. pose proof (is_grid_pos _ _ _ _ _ _ _ H) as [HY HX]. destruct (is_grid_rect _ _ _ _ _ _ _ H) as [R1 R2].
  pose proof (grid_inv _ _ _ _ _ _ _ H) as (E1 & E2 & _).
  rewrite for2_init_tab by lia.
  destruct (tab2_total Y X (fun i j => '(lat, lon) <- out_loc og i j ;; F lat lon)
    (fun i j x => forall la lo, get2 lats i j = Ok la -> get2 lons i j = Ok lo -> F (Fin la) (Fin lo) = Ok x)) as (out & Ho & Hr & K); [lia|lia| |].
  - intros i j Hi Hj. destruct (rect_get2 _ _ _ _ _ R1 Hi Hj) as [la Hla]. destruct (rect_get2 _ _ _ _ _ R2 Hi Hj) as [lo Hlo].
    destruct (HF i j la lo Hla Hlo) as [x Hx]. exists x. unfold out_loc. rewrite E1, E2, !get2_mapmap, Hla, Hlo. cbn [bind].
    split; [exact Hx|]. intros la' lo' A1 A2. congruence.
  - exists out. split; [apply omp_ok, Ho|]. split; [exact Hr|]. intros i j la lo Hla Hlo.
    destruct (get2_range _ _ _ _ _ _ R1 Hla) as [Hi Hj]. destruct (K i j Hi Hj) as (x & Hx & _ & P).
    exists x. split; [apply P; auto|exact Hx].
Qed.
Lemma out_points G t las los op (F : val -> val -> res A) (init : A) : is_points G t las los op ->
  (forall i la lo, znth las i = Ok la -> znth los i = Ok lo -> exists x, F (Fin la) (Fin lo) = Ok x) ->
  exists out, omp (for1 (points_size op) (init1 (points_size op) init) (fun i => '(lat, lon) <- pt_loc op i ;; F lat lon)) = Ok out /\
    on_points las los (fun la lo => F (Fin la) (Fin lo)) out.
Proof.
  intros H HF. destruct (points_inv _ _ _ _ _ H) as (HL & E1 & E2 & _).
  assert (En : points_size op = zlen las) by (unfold points_size; rewrite E1; apply zlen_map). rewrite En.
  pose proof (zlen_nonneg las). rewrite for1_init_tab by lia.
  destruct (mapM_total (fun i => '(lat, lon) <- pt_loc op i ;; F lat lon)
    (fun i x => forall la lo, znth las i = Ok la -> znth los i = Ok lo -> F (Fin la) (Fin lo) = Ok x) (zrange 0 (zlen las))) as (out & Ho & HZ & K).
  - intros i Hi. apply in_zrange in Hi. destruct (znth_some las i) as [la Hla]; [lia|]. destruct (znth_some los i) as [lo Hlo]; [lia|].
    destruct (HF i la lo Hla Hlo) as [x Hx]. exists x. unfold pt_loc. rewrite E1, E2, !znth_map, Hla, Hlo. cbn [bind].
    split; [exact Hx|]. intros la' lo' A1 A2. congruence.
  - exists out. split; [apply omp_ok, Ho|]. rewrite zlen_zrange in HZ. split; [lia|].
    intros i la lo Hla Hlo. pose proof (znth_range _ _ _ Hla).
    destruct (K i i) as (x & Hx & P). { rewrite znth_zrange by lia. f_equal; lia. }
    exists x. split; [apply P; auto|exact Hx].
Qed.
End Out.
Lemma out_shape_ok G t Y X lats lons og : is_grid G t Y X lats lons og -> out_shape og = Ok (Y, X).
Proof.
  intros H. pose proof (is_grid_pos _ _ _ _ _ _ _ H) as [HY HX]. destruct (is_grid_rect _ _ _ _ _ _ _ H) as [R1 R2].
  pose proof (grid_inv _ _ _ _ _ _ _ H) as (E1 & E2 & _). unfold out_shape. rewrite E1.
  pose proof (rect_mapmap Fin _ _ _ R1) as R3. destruct (rect_row0 _ _ _ HY R3) as (r & -> & Hr). cbn [bind].
  destruct R3 as [L _]. congruence.
Qed.
Lemma is_empty_false G t Y X lats lons g : is_grid G t Y X lats lons g -> is_empty_grid g = Ok false.
Proof.
  intros H. pose proof (is_grid_pos _ _ _ _ _ _ _ H) as [HY HX]. unfold is_empty_grid. rewrite (grid_size_ok _ _ _ _ _ _ _ H).
  cbn [bind]. rewrite (proj2 (Z.eqb_neq Y 0)), (proj2 (Z.eqb_neq X 0)) by lia. reflexivity.
Qed.
Lemma compat_grid2_ok {A} G t Y X lats lons g (v : list (list A)) : is_grid G t Y X lats lons g -> rect Y X v -> compat_grid2 g v = Ok true.
Proof.
  intros H R. pose proof (is_grid_pos _ _ _ _ _ _ _ H) as [HY HX]. unfold compat_grid2.
  destruct (rect_row0 _ _ _ HY R) as (r & Hr & L). destruct R as [L1 _].
  rewrite (proj2 (Z.eqb_neq (zlen v) 0)) by lia. rewrite (grid_size_ok _ _ _ _ _ _ _ H). cbn [bind].
  rewrite L1, Z.eqb_refl. cbn [negb]. rewrite Hr. cbn [bind]. rewrite L, Z.eqb_refl. reflexivity.
Qed.
Lemma compat_grid3_ok {A} G t Y X lats lons g (v : list (list (list A))) : is_grid G t Y X lats lons g -> Forall (rect Y X) v -> compat_grid3 g v = Ok true.
Proof.
  intros H R. pose proof (is_grid_pos _ _ _ _ _ _ _ H) as [HY HX]. unfold compat_grid3.
  destruct v as [|v0 v]; [reflexivity|]. pose proof (zlen_nonneg v). rewrite zlen_cons, (proj2 (Z.eqb_neq (zlen v + 1) 0)) by lia.
  rewrite znth_cons0. cbn [bind]. apply Forall_inv in R.
  destruct (rect_row0 _ _ _ HY R) as (r & Hr & L). destruct R as [L1 _].
  rewrite (proj2 (Z.eqb_neq (zlen v0) 0)) by lia. rewrite (grid_size_ok _ _ _ _ _ _ _ H). cbn [bind].
  rewrite L1, Z.eqb_refl. cbn [negb]. rewrite Hr. cbn [bind]. rewrite L, Z.eqb_refl. reflexivity.
Qed.
Lemma compat_grid2_bad {A} G t Y X lats lons g (v : list (list A)) v0 : is_grid G t Y X lats lons g -> znth v 0 = Ok v0 ->
  (zlen v, zlen v0) <> (Y, X) -> compat_grid2 g v = Ok false.
Proof.
  intros H Hv Hn. unfold compat_grid2. pose proof (znth_range _ _ _ Hv).
  rewrite (proj2 (Z.eqb_neq (zlen v) 0)) by lia. rewrite (grid_size_ok _ _ _ _ _ _ _ H). cbn [bind].
  destruct (Z.eqb_spec Y (zlen v)); [|reflexivity]. cbn [negb]. rewrite Hv. cbn [bind].
  destruct (Z.eqb_spec X (zlen v0)); [|reflexivity]. congruence.
Qed.

(** ** grid input *)
Section FromGrid.
Variables (G : geo) (t : ctype) (Y X : Z) (lats lons : list (list Qc)) (ig : grid).
Hypothesis HG : geo_ok G.
Hypothesis HI : is_grid G t Y X lats lons ig.
(** the chosen cell *)
Definition cell_of (la lo : Qc) : Z * Z :=
  match lookup_grid G ig (Fin la) (Fin lo) with Ok c => c | _ => (-1, -1) end.
Lemma cell_of_spec la lo : valid_loc t la -> lookup_grid G ig (Fin la) (Fin lo) = Ok (cell_of la lo) /\
  0 <= fst (cell_of la lo) < Y /\ 0 <= snd (cell_of la lo) < X /\
  closest (grid_at' G t lats lons) (position G t la lo) true (cell_of la lo).
Proof.
  intros V. destruct (grid_nearest_some G t Y X lats lons ig la lo HG HI V) as (y & x & E & ? & ? & C).
  unfold cell_of, lookup_grid. rewrite E. cbn. auto.
Qed.
Lemma cell_val {A} (v : list (list A)) la lo : rect Y X v -> valid_loc t la ->
  exists x, val_at v (cell_of la lo) = Ok x /\ (k <- lookup_grid G ig (Fin la) (Fin lo) ;; at_grid v k) = Ok x.
Proof.
  intros R V. destruct (cell_of_spec la lo V) as (E & H1 & H2 & _). destruct (rect_get2 _ _ _ _ _ R H1 H2) as [x Hx].
  exists x. rewrite E. cbn. auto.
Qed.
Lemma gg2 t' Y' X' lats' lons' og v : is_grid G t' Y' X' lats' lons' og -> valid_all2 t lats' -> rect Y X v ->
  exists out, nearest_gg2 G ig og v = Ok out /\ rect Y' X' out /\ on_grid lats' lons' (fun la lo => val_at v (cell_of la lo)) out.
Proof.
  intros HO HV R. unfold nearest_gg2. rewrite (compat_grid2_ok _ _ _ _ _ _ _ _ HI R). cbn [bind negb].
  rewrite (out_shape_ok _ _ _ _ _ _ _ HO). cbn [bind]. rewrite (is_empty_false _ _ _ _ _ _ _ HI). cbn [bind].
  destruct (out_grid G t' Y' X' lats' lons' og (fun lat lon => k <- lookup_grid G ig lat lon ;; at_grid v k) MV HO) as (out & Ho & Hr & K).
  { intros i j la lo Hla _. destruct (cell_val v la lo R) as (x & _ & Hx); [eapply valid_get2; eauto|]. eauto. }
  exists out. split; [exact Ho|]. split; [exact Hr|]. intros i j la lo Hla Hlo. destruct (K i j la lo Hla Hlo) as (x & Hx & Hg).
  exists x. split; [|exact Hg]. destruct (cell_val v la lo R) as (x' & Hx' & Hw); [eapply valid_get2; eauto|]. congruence.
Qed.
Lemma gp2 t' las' los' op v : is_points G t' las' los' op -> valid_all t las' -> rect Y X v ->
  exists out, nearest_gp2 G ig op v = Ok out /\ on_points las' los' (fun la lo => val_at v (cell_of la lo)) out.
Proof.
  intros HO HV R. unfold nearest_gp2. rewrite (compat_grid2_ok _ _ _ _ _ _ _ _ HI R). cbn [bind negb].
  rewrite (is_empty_false _ _ _ _ _ _ _ HI). cbn [bind].
  destruct (out_points G t' las' los' op (fun lat lon => k <- lookup_grid G ig lat lon ;; at_grid v k) MV HO) as (out & Ho & L & K).
  { intros i la lo Hla _. destruct (cell_val v la lo R) as (x & _ & Hx); [eapply valid_znth; eauto|]. eauto. }
  exists out. split; [exact Ho|]. split; [exact L|]. intros i la lo Hla Hlo. destruct (K i la lo Hla Hlo) as (x & Hx & Hg).
  exists x. split; [|exact Hg]. destruct (cell_val v la lo R) as (x' & Hx' & Hw); [eapply valid_znth; eauto|]. congruence.
Qed.
Lemma time_loop {A B} (v : list A) (f : A -> res B) (R : A -> B -> Prop) : (forall a, In a v -> exists b, f a = Ok b /\ R a b) ->
  exists out, mapM (fun s => vt <- znth v s ;; f vt) (zrange 0 (zlen v)) = Ok out /\ Forall2 R v out.
Proof.
  intros H. rewrite mapM_zrange_znth. induction v as [|a v IH]; [exists []; split; [reflexivity|constructor]|].
  destruct (H a) as (b & Hb & Rb); [left; reflexivity|]. destruct IH as (o & Ho & Ro); [intros; apply H; right; assumption|].
  exists (b :: o). cbn. rewrite Hb. cbn. rewrite Ho. split; [reflexivity|constructor; assumption].
Qed.
Lemma gg3 t' Y' X' lats' lons' og v : is_grid G t' Y' X' lats' lons' og -> valid_all2 t lats' -> Forall (rect Y X) v ->
  exists out, nearest_gg3 G ig og v = Ok out /\
  Forall2 (fun vt ot => rect Y' X' ot /\ on_grid lats' lons' (fun la lo => val_at vt (cell_of la lo)) ot) v out.
Proof.
  intros HO HV R. pose proof (is_grid_pos _ _ _ _ _ _ _ HO) as [HY' HX']. destruct (is_grid_rect _ _ _ _ _ _ _ HO) as [R1' R2'].
  unfold nearest_gg3. rewrite (compat_grid3_ok _ _ _ _ _ _ _ _ HI R). cbn [bind negb].
  rewrite (out_shape_ok _ _ _ _ _ _ _ HO). cbn [bind]. rewrite (is_empty_false _ _ _ _ _ _ _ HI). cbn [bind].
  destruct (out_grid G t' Y' X' lats' lons' og (fun lat lon => lookup_grid G ig lat lon) (-1, -1) HO) as (IJ & Ho & Hr & K).
  { intros i j la lo Hla _. destruct (cell_of_spec la lo) as (E & _); [eapply valid_get2; eauto|]. eauto. }
  rewrite Ho. cbn [bind]. apply time_loop. intros vt Hin. rewrite Forall_forall in R. specialize (R _ Hin).
  destruct (tab2_total Y' X' (fun i j => k <- get2 IJ i j ;; at_grid vt k)
    (fun i j x => forall la lo, get2 lats' i j = Ok la -> get2 lons' i j = Ok lo -> val_at vt (cell_of la lo) = Ok x)) as (ot & Hot & Hrt & Kt); [lia|lia| |].
  - intros i j Hi Hj. destruct (rect_get2 _ _ _ _ _ R1' Hi Hj) as [la Hla]. destruct (rect_get2 _ _ _ _ _ R2' Hi Hj) as [lo Hlo].
    destruct (K i j la lo Hla Hlo) as (c & Hc & Hg). pose proof (valid_get2 _ _ _ _ _ HV Hla) as V.
    destruct (cell_of_spec la lo V) as (E & _). destruct (cell_val vt la lo R V) as (x & Hx & _).
    rewrite Hg. cbn [bind]. exists x. assert (c = cell_of la lo) by congruence. subst c. split; [exact Hx|].
    intros la' lo' A1 A2. congruence.
  - exists ot. split; [exact Hot|]. split; [exact Hrt|]. intros i j la lo Hla Hlo.
    destruct (get2_range _ _ _ _ _ _ R1' Hla) as [Hi Hj]. destruct (Kt i j Hi Hj) as (x & Hx & _ & P). exists x. auto.
Qed.
Lemma gp3 t' las' los' op v : is_points G t' las' los' op -> valid_all t las' -> Forall (rect Y X) v ->
  exists out, nearest_gp3 G ig op v = Ok out /\
  Forall2 (fun vt ot => on_points las' los' (fun la lo => val_at vt (cell_of la lo)) ot) v out.
Proof.
  intros HO HV R. destruct (points_inv _ _ _ _ _ HO) as (HL' & E1' & E2' & _). pose proof (zlen_nonneg las') as Hn.
  unfold nearest_gp3. rewrite (compat_grid3_ok _ _ _ _ _ _ _ _ HI R). cbn [bind negb].
  rewrite (is_empty_false _ _ _ _ _ _ _ HI). cbn [bind].
  destruct (out_points G t' las' los' op (fun lat lon => lookup_grid G ig lat lon) (-1, -1) HO) as (IJ & Ho & L & K).
  { intros i la lo Hla _. destruct (cell_of_spec la lo) as (E & _); [eapply valid_znth; eauto|]. eauto. }
  rewrite Ho. cbn [bind]. apply time_loop. intros vt Hin. rewrite Forall_forall in R. specialize (R _ Hin).
  assert (En : points_size op = zlen las') by (unfold points_size; rewrite E1'; apply zlen_map). rewrite En.
  destruct (mapM_total (fun i => k <- znth IJ i ;; at_grid vt k)
    (fun i x => forall la lo, znth las' i = Ok la -> znth los' i = Ok lo -> val_at vt (cell_of la lo) = Ok x) (zrange 0 (zlen las'))) as (ot & Hot & Hlt & Kt).
  - intros i Hi. apply in_zrange in Hi. destruct (znth_some las' i) as [la Hla]; [lia|]. destruct (znth_some los' i) as [lo Hlo]; [lia|].
    destruct (K i la lo Hla Hlo) as (c & Hc & Hg). pose proof (valid_znth _ _ _ _ HV Hla) as V.
    destruct (cell_of_spec la lo V) as (E & _). destruct (cell_val vt la lo R V) as (x & Hx & _).
    rewrite Hg. cbn [bind]. exists x. assert (c = cell_of la lo) by congruence. subst c. split; [exact Hx|].
    intros la' lo' A1 A2. congruence.
  - exists ot. split; [exact Hot|]. rewrite zlen_zrange in Hlt. split; [lia|]. intros i la lo Hla Hlo. pose proof (znth_range _ _ _ Hla).
    destruct (Kt i i) as (x & Hx & P). { rewrite znth_zrange by lia. f_equal; lia. } exists x. split; [apply P; auto|exact Hx].
Qed.
End FromGrid.

(** ** points input *)
Section FromPoints.
Variables (G : geo) (t : ctype) (las los : list Qc) (ip : points).
Hypothesis HG : geo_ok G.
Hypothesis HI : is_points G t las los ip.
Hypothesis HN : las <> [].
Definition idx_of (la lo : Qc) : Z := match points_nearest G ip (Fin la) (Fin lo) true with Ok c => c | _ => -1 end.
Lemma ip_size : points_size ip = zlen las.
Proof. destruct (points_inv _ _ _ _ _ HI) as (_ & E1 & _). unfold points_size. rewrite E1. apply zlen_map. Qed.
Lemma ip_pos : 0 < zlen las.
Proof. destruct las; [congruence|]. rewrite zlen_cons. pose proof (zlen_nonneg l). lia. Qed.
Lemma idx_of_spec la lo : valid_loc t la -> points_nearest G ip (Fin la) (Fin lo) true = Ok (idx_of la lo) /\
  0 <= idx_of la lo < zlen las /\ closest (point_at G t las los) (position G t la lo) true (idx_of la lo).
Proof.
  intros V. destruct (points_inv _ _ _ _ _ HI) as (HL & _ & _ & HT & _).
  destruct (points_nearest_spec G t las los ip la lo true HG HT V) as [[_ H]|(i & Hi & E & C)].
  - exfalso. pose proof ip_pos. destruct (znth_some las 0) as [a Ha]; [lia|]. destruct (znth_some los 0) as [b Hb]; [lia|].
    apply (H 0 (position G t a b)); [exists a, b; auto|left; reflexivity].
  - unfold idx_of. rewrite E. auto.
Qed.
Lemma idx_val {A} (v : list A) la lo : zlen v = zlen las -> valid_loc t la ->
  exists x, znth v (idx_of la lo) = Ok x /\ (k <- points_nearest G ip (Fin la) (Fin lo) true ;; znth v k) = Ok x.
Proof.
  intros R V. destruct (idx_of_spec la lo V) as (E & H1 & _). destruct (znth_some v (idx_of la lo)) as [x Hx]; [lia|].
  exists x. rewrite E. cbn. auto.
Qed.
Lemma compat_points2_ok {A} (v : list (list A)) : Forall (fun r => zlen r = zlen las) v -> compat_points2 ip v = Ok true.
Proof.
  intros R. unfold compat_points2. destruct v as [|v0 v]; [reflexivity|]. pose proof (zlen_nonneg v).
  rewrite zlen_cons, (proj2 (Z.eqb_neq (zlen v + 1) 0)), znth_cons0 by lia. cbn [bind]. apply Forall_inv in R.
  rewrite ip_size, R, Z.eqb_refl. reflexivity.
Qed.
Lemma ip_nonempty : (points_size ip =? 0) = false.
Proof. rewrite ip_size. pose proof ip_pos. apply Z.eqb_neq. lia. Qed.
Lemma pg1 t' Y' X' lats' lons' og v : is_grid G t' Y' X' lats' lons' og -> valid_all2 t lats' -> zlen v = zlen las ->
  exists out, nearest_pg1 G ip og v = Ok out /\ rect Y' X' out /\ on_grid lats' lons' (fun la lo => znth v (idx_of la lo)) out.
Proof.
  intros HO HV R. unfold nearest_pg1, compat_points1. rewrite ip_size, R, Z.eqb_refl, <- ip_size. cbn [negb].
  rewrite (out_shape_ok _ _ _ _ _ _ _ HO). cbn [bind]. rewrite ip_nonempty.
  destruct (out_grid G t' Y' X' lats' lons' og (fun lat lon => k <- points_nearest G ip lat lon true ;; znth v k) MV HO) as (out & Ho & Hr & K).
  { intros i j la lo Hla _. destruct (idx_val v la lo R) as (x & _ & Hx); [eapply valid_get2; eauto|]. eauto. }
  exists out. split; [exact Ho|]. split; [exact Hr|]. intros i j la lo Hla Hlo. destruct (K i j la lo Hla Hlo) as (x & Hx & Hg).
  exists x. split; [|exact Hg]. destruct (idx_val v la lo R) as (x' & Hx' & Hw); [eapply valid_get2; eauto|]. congruence.
Qed.
Lemma pp1 t' las' los' op v : is_points G t' las' los' op -> valid_all t las' -> zlen v = zlen las ->
  exists out, nearest_pp1 G ip op v = Ok out /\ on_points las' los' (fun la lo => znth v (idx_of la lo)) out.
Proof.
  intros HO HV R. unfold nearest_pp1. rewrite ip_size, R, Z.eqb_refl, <- ip_size. cbn [negb]. rewrite ip_nonempty.
  destruct (out_points G t' las' los' op (fun lat lon => k <- points_nearest G ip lat lon true ;; znth v k) MV HO) as (out & Ho & L & K).
  { intros i la lo Hla _. destruct (idx_val v la lo R) as (x & _ & Hx); [eapply valid_znth; eauto|]. eauto. }
  exists out. split; [exact Ho|]. split; [exact L|]. intros i la lo Hla Hlo. destruct (K i la lo Hla Hlo) as (x & Hx & Hg).
  exists x. split; [|exact Hg]. destruct (idx_val v la lo R) as (x' & Hx' & Hw); [eapply valid_znth; eauto|]. congruence.
Qed.
Lemma pg2 t' Y' X' lats' lons' og v : is_grid G t' Y' X' lats' lons' og -> valid_all2 t lats' -> Forall (fun r => zlen r = zlen las) v ->
  exists out, nearest_pg2 G ip og v = Ok out /\
  Forall2 (fun vt ot => rect Y' X' ot /\ on_grid lats' lons' (fun la lo => znth vt (idx_of la lo)) ot) v out.
Proof.
  intros HO HV R. pose proof (is_grid_pos _ _ _ _ _ _ _ HO) as [HY' HX']. destruct (is_grid_rect _ _ _ _ _ _ _ HO) as [R1' R2'].
  unfold nearest_pg2. rewrite (compat_points2_ok _ R). cbn [bind negb].
  rewrite (out_shape_ok _ _ _ _ _ _ _ HO). cbn [bind]. rewrite ip_nonempty.
  destruct (out_grid G t' Y' X' lats' lons' og (fun lat lon => points_nearest G ip lat lon true) (-1) HO) as (IJ & Ho & Hr & K).
  { intros i j la lo Hla _. destruct (idx_of_spec la lo) as (E & _); [eapply valid_get2; eauto|]. eauto. }
  rewrite Ho. cbn [bind]. apply time_loop. intros vt Hin. rewrite Forall_forall in R. specialize (R _ Hin).
  destruct (tab2_total Y' X' (fun i j => k <- get2 IJ i j ;; znth vt k)
    (fun i j x => forall la lo, get2 lats' i j = Ok la -> get2 lons' i j = Ok lo -> znth vt (idx_of la lo) = Ok x)) as (ot & Hot & Hrt & Kt); [lia|lia| |].
  - intros i j Hi Hj. destruct (rect_get2 _ _ _ _ _ R1' Hi Hj) as [la Hla]. destruct (rect_get2 _ _ _ _ _ R2' Hi Hj) as [lo Hlo].
    destruct (K i j la lo Hla Hlo) as (c & Hc & Hg). pose proof (valid_get2 _ _ _ _ _ HV Hla) as V.
    destruct (idx_of_spec la lo V) as (E & _). destruct (idx_val vt la lo R V) as (x & Hx & _).
    rewrite Hg. cbn [bind]. exists x. assert (c = idx_of la lo) by congruence. subst c. split; [exact Hx|].
    intros la' lo' A1 A2. congruence.
  - exists ot. split; [exact Hot|]. split; [exact Hrt|]. intros i j la lo Hla Hlo.
    destruct (get2_range _ _ _ _ _ _ R1' Hla) as [Hi Hj]. destruct (Kt i j Hi Hj) as (x & Hx & _ & P). exists x. auto.
Qed.
Lemma pp2 t' las' los' op v : is_points G t' las' los' op -> valid_all t las' -> Forall (fun r => zlen r = zlen las) v ->
  exists out, nearest_pp2 G ip op v = Ok out /\
  Forall2 (fun vt ot => on_points las' los' (fun la lo => znth vt (idx_of la lo)) ot) v out.
Proof.
  intros HO HV R. destruct (points_inv _ _ _ _ _ HO) as (HL' & E1' & E2' & _). pose proof (zlen_nonneg las') as Hn.
  unfold nearest_pp2. rewrite (compat_points2_ok _ R). cbn [bind negb]. rewrite ip_nonempty.
  destruct (out_points G t' las' los' op (fun lat lon => points_nearest G ip lat lon true) (-1) HO) as (IJ & Ho & L & K).
  { intros i la lo Hla _. destruct (idx_of_spec la lo) as (E & _); [eapply valid_znth; eauto|]. eauto. }
  rewrite Ho. cbn [bind]. apply time_loop. intros vt Hin. rewrite Forall_forall in R. specialize (R _ Hin).
  assert (En : points_size op = zlen las') by (unfold points_size; rewrite E1'; apply zlen_map). rewrite En.
  destruct (mapM_total (fun i => k <- znth IJ i ;; znth vt k)
    (fun i x => forall la lo, znth las' i = Ok la -> znth los' i = Ok lo -> znth vt (idx_of la lo) = Ok x) (zrange 0 (zlen las'))) as (ot & Hot & Hlt & Kt).
  - intros i Hi. apply in_zrange in Hi. destruct (znth_some las' i) as [la Hla]; [lia|]. destruct (znth_some los' i) as [lo Hlo]; [lia|].
    destruct (K i la lo Hla Hlo) as (c & Hc & Hg). pose proof (valid_znth _ _ _ _ HV Hla) as V.
    destruct (idx_of_spec la lo V) as (E & _). destruct (idx_val vt la lo R V) as (x & Hx & _).
    rewrite Hg. cbn [bind]. exists x. assert (c = idx_of la lo) by congruence. subst c. split; [exact Hx|].
    intros la' lo' A1 A2. congruence.
  - exists ot. split; [exact Hot|]. rewrite zlen_zrange in Hlt. split; [lia|]. intros i la lo Hla Hlo. pose proof (znth_range _ _ _ Hla).
    destruct (Kt i i) as (x & Hx & P). { rewrite znth_zrange by lia. f_equal; lia. } exists x. split; [apply P; auto|exact Hx].
Qed.
End FromPoints.

Lemma qle0 p q : (0 <= sqdist p q)%Qc.
Proof. rewrite <- dist2_sqdist. apply dist2_nonneg. Qed.
(** a location coinciding with exactly one input location selects it *)
Lemma closest_unique {I} (at_ : I -> xyz -> Prop) p c i : (forall j q q', at_ j q -> at_ j q' -> q = q') ->
  closest at_ p true c -> at_ i p -> (forall j q, at_ j q -> sqdist p q = 0%Qc -> j = i) -> c = i.
Proof.
  intros F (q & Hq & _ & H) Hi U. apply (U c q Hq). apply Qcle_antisym; [|apply qle0].
  replace 0%Qc with (sqdist p p). { apply (H i p Hi). left; reflexivity. } unfold sqdist. ring.
Qed.

Lemma c42_grid : forall G t Y X lats lons ig, geo_ok G -> is_grid G t Y X lats lons ig ->
  exists cell : Qc -> Qc -> Z * Z,
  (forall la lo, valid_loc t la -> closest (grid_at' G t lats lons) (position G t la lo) true (cell la lo)) /\
  (forall la lo c, valid_loc t la -> grid_at' G t lats lons c (position G t la lo) ->
     (forall c' q, grid_at' G t lats lons c' q -> sqdist (position G t la lo) q = 0%Qc -> c' = c) -> cell la lo = c) /\
  (forall t' Y' X' lats' lons' og, is_grid G t' Y' X' lats' lons' og -> valid_all2 t lats' ->
     (forall v, rect Y X v -> exists out, nearest_gg2 G ig og v = Ok out /\ rect Y' X' out /\
        on_grid lats' lons' (fun la lo => val_at v (cell la lo)) out) /\
     (forall v, Forall (rect Y X) v -> exists out, nearest_gg3 G ig og v = Ok out /\
        Forall2 (fun vt ot => rect Y' X' ot /\ on_grid lats' lons' (fun la lo => val_at vt (cell la lo)) ot) v out)) /\
  (forall t' las' los' op, is_points G t' las' los' op -> valid_all t las' ->
     (forall v, rect Y X v -> exists out, nearest_gp2 G ig op v = Ok out /\
        on_points las' los' (fun la lo => val_at v (cell la lo)) out) /\
     (forall v, Forall (rect Y X) v -> exists out, nearest_gp3 G ig op v = Ok out /\
        Forall2 (fun vt ot => on_points las' los' (fun la lo => val_at vt (cell la lo)) ot) v out)).
Proof.
  intros G t Y X lats lons ig HG HI. exists (cell_of G ig).
  assert (C : forall la lo, valid_loc t la -> closest (grid_at' G t lats lons) (position G t la lo) true (cell_of G ig la lo)).
  { intros la lo V. eapply cell_of_spec; eauto. }
  split; [exact C|]. split; [|split].
  - intros la lo c V Hc U. eapply closest_unique; eauto. intros [y x] q q' A1 A2. eapply grid_at_fun; eauto.
  - intros t' Y' X' lats' lons' og HO HV. split; intros v Hv; [eapply gg2|eapply gg3]; eauto.
  - intros t' las' los' op HO HV. split; intros v Hv; [eapply gp2|eapply gp3]; eauto.
Qed.
Lemma c42_points : forall G t las los ip, geo_ok G -> is_points G t las los ip -> las <> [] ->
  exists idx : Qc -> Qc -> Z,
  (forall la lo, valid_loc t la -> closest (point_at G t las los) (position G t la lo) true (idx la lo)) /\
  (forall la lo i, valid_loc t la -> point_at G t las los i (position G t la lo) ->
     (forall j q, point_at G t las los j q -> sqdist (position G t la lo) q = 0%Qc -> j = i) -> idx la lo = i) /\
  (forall t' Y' X' lats' lons' og, is_grid G t' Y' X' lats' lons' og -> valid_all2 t lats' ->
     (forall v, zlen v = zlen las -> exists out, nearest_pg1 G ip og v = Ok out /\ rect Y' X' out /\
        on_grid lats' lons' (fun la lo => znth v (idx la lo)) out) /\
     (forall v, Forall (fun r => zlen r = zlen las) v -> exists out, nearest_pg2 G ip og v = Ok out /\
        Forall2 (fun vt ot => rect Y' X' ot /\ on_grid lats' lons' (fun la lo => znth vt (idx la lo)) ot) v out)) /\
  (forall t' las' los' op, is_points G t' las' los' op -> valid_all t las' ->
     (forall v, zlen v = zlen las -> exists out, nearest_pp1 G ip op v = Ok out /\
        on_points las' los' (fun la lo => znth v (idx la lo)) out) /\
     (forall v, Forall (fun r => zlen r = zlen las) v -> exists out, nearest_pp2 G ip op v = Ok out /\
        Forall2 (fun vt ot => on_points las' los' (fun la lo => znth vt (idx la lo)) ot) v out)).
Proof.
  intros G t las los ip HG HI HN. exists (idx_of G ip).
  assert (C : forall la lo, valid_loc t la -> closest (point_at G t las los) (position G t la lo) true (idx_of G ip la lo)).
  { intros la lo V. eapply idx_of_spec; eauto. }
  split; [exact C|]. split; [|split].
  - intros la lo c V Hc U. eapply closest_unique; eauto. intros j q q' A1 A2. eapply point_at_fun; eauto.
  - intros t' Y' X' lats' lons' og HO HV. split; intros v Hv; [eapply pg1|eapply pg2]; eauto.
  - intros t' las' los' op HO HV. split; intros v Hv; [eapply pp1|eapply pp2]; eauto.
Qed.
(** a grid and the points made of it select the same input location *)
Lemma c42_same : forall G t Y X lats lons ig P la lo, geo_ok G -> is_grid G t Y X lats lons ig -> to_points ig = Ok P -> valid_loc t la ->
  exists k c, points_nearest G P (Fin la) (Fin lo) true = Ok k /\ grid_nearest G ig (Fin la) (Fin lo) true = Ok (Some c) /\
     0 <= snd c < X /\ k = fst c * X + snd c.
Proof.
  intros G t Y X lats lons ig P la lo HG HI HP V.
  pose proof (is_grid_pos _ _ _ _ _ _ _ HI) as [HY HX].
  pose proof (grid_inv _ _ _ _ _ _ _ HI) as (_ & _ & EX & HT & _).
  destruct (grid_nearest_some G t Y X lats lons ig la lo HG HI V) as (y & x & E & Ry & Rx & C).
  unfold to_points in HP. apply bind_Ok in HP as ([a b] & _ & HP). apply bind_Ok in HP as (e & _ & HP). apply bind_Ok in HP as (f & _ & HP).
  injection HP as <-. unfold points_nearest. cbn [points_of_tree s_tree].
  destruct (closest_one G t _ _ _ la lo true HG HT V) as (I & HI' & K).
  unfold grid_nearest, grid_closest in E |- *. rewrite HI' in E |- *. cbn [bind] in E |- *.
  destruct K as [[-> _]|(i & -> & (q & Hq & _))]; [discriminate|].
  apply (grid_point_at _ _ _ _ _ _ _ _ _ HI) in Hq as [Ri Hq].
  rewrite (get_indices_all_ok _ _ _ _ _ _ _ _ HI) by (constructor; [lia|constructor]). cbn [bind map].
  exists i, (i / X, i mod X). split; [reflexivity|]. split; [reflexivity|]. cbn [fst snd].
  split; [apply Z.mod_pos_bound; lia|]. rewrite (Z.div_mod i X) at 1 by lia. lia.
Qed.
