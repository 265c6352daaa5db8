(** C43: bilinear interpolation on grids. *)
From Verif Require Import QcTac Base ListLib M_Geo S_Geo S_Near P_Geo P_Grid P_Box M_Near P_Near M_Bilin S_Bilin P_Bilin.
Local Open Scope Qc_scope.

Lemma corners_some {A} Y X (f : list (list A)) y x : rect Y X f -> (0 <= y)%Z -> (y + 1 < Y)%Z -> (0 <= x)%Z -> (x + 1 < X)%Z -> exists a0 a1 a2 a3, corners f y x a0 a1 a2 a3.
Proof.
  intros R H1 H2 H3 H4.
  destruct (rect_get2 Y X f y x R) as [a0 E0]; [lia|lia|]. destruct (rect_get2 Y X f (y + 1) x R) as [a1 E1]; [lia|lia|].
  destruct (rect_get2 Y X f y (x + 1) R) as [a2 E2]; [lia|lia|]. destruct (rect_get2 Y X f (y + 1) (x + 1) R) as [a3 E3]; [lia|lia|].
  exists a0, a1, a2, a3. unfold corners. auto.
Qed.
Lemma cross_zero ax ay bx by_ dx dy z : z = cross ax ay bx by_ dx dy \/ z = - cross ax ay bx by_ dx dy -> z <> 0 -> cross ax ay bx by_ dx dy <> 0.
Proof. intros [-> | ->] H K; apply H; rewrite K; reflexivity. Qed.
Lemma corners_fun {A} (f : list (list A)) y x a0 a1 a2 a3 b0 b1 b2 b3 : corners f y x a0 a1 a2 a3 -> corners f y x b0 b1 b2 b3 ->
  a0 = b0 /\ a1 = b1 /\ a2 = b2 /\ a3 = b3.
Proof. intros (A0 & A1 & A2 & A3) (B0 & B1 & B2 & B3). repeat split; congruence. Qed.
Lemma in_cell_edges lats lons y x y' x' la lo a1 o1 a2 o2 a3 o3 a4 o4 :
  get2 lats y x = Ok a1 -> get2 lons y x = Ok o1 -> get2 lats y' x = Ok a2 -> get2 lons y' x = Ok o2 ->
  get2 lats y' x' = Ok a3 -> get2 lons y' x' = Ok o3 -> get2 lats y x' = Ok a4 -> get2 lons y x' = Ok o4 ->
  in_cell lats lons y x y' x' la lo <-> inside_edges o1 a1 o2 a2 o3 a3 o4 a4 lo la.
Proof.
  intros E1 F1 E2 F2 E3 F3 E4 F4. split.
  - intros (b1 & p1 & b2 & p2 & b3 & p3 & b4 & p4 & G1 & H1 & G2 & H2 & G3 & H3 & G4 & H4 & IE).
    rewrite E1 in G1. rewrite E2 in G2. rewrite E3 in G3. rewrite E4 in G4. rewrite F1 in H1. rewrite F2 in H2. rewrite F3 in H3. rewrite F4 in H4.
    injection G1 as <-. injection G2 as <-. injection G3 as <-. injection G4 as <-.
    injection H1 as <-. injection H2 as <-. injection H3 as <-. injection H4 as <-. exact IE.
  - intros IE. exists a1, o1, a2, o2, a3, o3, a4, o4. auto 20.
Qed.
(** the position inside a parallelogram cell, whichever corner is nearest *)
Lemma cell_param lats lons y x yn xn la lo : parallelogram_cells lats lons -> corner_of yn xn y x ->
  (exists a0 a1 a2 a3, corners lats y x a0 a1 a2 a3) -> (exists a0 a1 a2 a3, corners lons y x a0 a1 a2 a3) ->
  in_cell lats lons yn xn (y + (y + 1) - yn) (x + (x + 1) - xn) la lo <-> in_pcell lats lons y x la lo.
Proof.
  intros HP [Hy Hx] (y0 & y1 & y2 & y3 & Cy) (x0 & x1 & x2 & x3 & Cx).
  destruct (HP y x _ _ _ _ _ _ _ _ Cy Cx) as [[E1 E2] N]. pose proof Cy as (A0 & A1 & A2 & A3). pose proof Cx as (O0 & O1 & O2 & O3).
  assert (PC : in_pcell lats lons y x la lo <-> exists s u, unit_range s /\ unit_range u /\
     lo = x0 + s * (x2 - x0) + u * (x1 - x0) /\ la = y0 + s * (y2 - y0) + u * (y1 - y0)).
  { split; intros (s & u & Us & Uu & K); exists s, u; (split; [exact Us|]); (split; [exact Uu|]).
    - destruct K as (b0 & b1 & b2 & b3 & c0 & c1 & c2 & c3 & Dy & Dx & K).
      destruct (corners_fun _ _ _ _ _ _ _ _ _ _ _ Dy Cy) as (-> & -> & -> & ->). destruct (corners_fun _ _ _ _ _ _ _ _ _ _ _ Dx Cx) as (-> & -> & -> & ->). exact K.
    - exists y0, y1, y2, y3, x0, x1, x2, x3. auto. }
  rewrite PC. clear PC.
  destruct Hy as [-> | ->], Hx as [-> | ->];
    rewrite ?(Z.add_simpl_l y (y + 1)), ?(Z.add_simpl_l x (x + 1)), ?(Z.add_simpl_r y (y + 1)), ?(Z.add_simpl_r x (x + 1));
    (rewrite in_cell_edges; [|eassumption..]);
    (rewrite edges_parallelogram; [|subst; ring|subst; ring|eapply cross_zero; [|exact N]; subst; unfold cross; (left; ring) || (right; ring)]);
    unfold in_parallelogram, unit_range.
  - split; [intros (s & u & S0 & S1 & U0 & U1 & -> & ->); exists u, s|intros (s & u & [S0 S1] & [U0 U1] & -> & ->); exists u, s]; repeat split; auto; ring.
  - split; [intros (s & u & S0 & S1 & U0 & U1 & -> & ->); exists (1 - u), s|intros (s & u & [S0 S1] & [U0 U1] & -> & ->); exists u, (1 - s)]; subst; repeat split; auto; try ring; qlra.
  - split; [intros (s & u & S0 & S1 & U0 & U1 & -> & ->); exists u, (1 - s)|intros (s & u & [S0 S1] & [U0 U1] & -> & ->); exists (1 - u), s]; subst; repeat split; auto; try ring; qlra.
  - split; [intros (s & u & S0 & S1 & U0 & U1 & -> & ->); exists (1 - u), (1 - s)|intros (s & u & [S0 S1] & [U0 U1] & -> & ->); exists (1 - u), (1 - s)]; subst; repeat split; auto; try ring; qlra.
Qed.

Section OnGrid.
Variables (E : ext) (G : geo) (t : ctype) (Y X : Z) (lats lons : list (list Qc)) (ig : grid).
Hypothesis HG : geo_ok G.
Hypothesis HI : is_grid G t Y X lats lons ig.
Lemma corner_inside (f : list (list Qc)) y x a0 a1 a2 a3 : rect Y X f -> corners f y x a0 a1 a2 a3 -> (0 <= y /\ y + 1 < Y /\ 0 <= x /\ x + 1 < X)%Z.
Proof. intros R (H0 & H1 & H2 & H3). pose proof (get2_range _ _ _ _ _ _ R H0). pose proof (get2_range _ _ _ _ _ _ R H3). lia. Qed.
(** reading the coordinates of a cell *)
Lemma corners_Fin (f : list (list Qc)) y x a0 a1 a2 a3 : corners f y x a0 a1 a2 a3 -> corners (mFin f) y x (Fin a0) (Fin a1) (Fin a2) (Fin a3).
Proof.
  intros (H0 & H1 & H2 & H3). unfold corners. change (mFin f) with (map (map Fin) f). rewrite !get2_mapmap, H0, H1, H2, H3. auto.
Qed.
Lemma finite_dec w0 w1 w2 w3 : (is_valid w0 && is_valid w1 && is_valid w2 && is_valid w3)%bool = true <-> all_finite w0 w1 w2 w3.
Proof.
  split.
  - intros H. apply andb_true_iff in H as [H H3]. apply andb_true_iff in H as [H H2]. apply andb_true_iff in H as [H0 H1].
    destruct w0, w1, w2, w3; try discriminate. unfold all_finite. eauto 10.
  - intros (v0 & v1 & v2 & v3 & -> & -> & -> & ->). reflexivity.
Qed.
(** the computation at one location, with the answer of get_box known *)
Lemma calc_box_cell v y x la lo : rect Y X v -> valid_loc t la -> (0 <= y)%Z -> (y + 1 < Y)%Z -> (0 <= x)%Z -> (x + 1 < X)%Z ->
  exists y0 y1 y2 y3 x0 x1 x2 x3 w0 w1 w2 w3, corners lats y x y0 y1 y2 y3 /\ corners lons y x x0 x1 x2 x3 /\ corners v y x w0 w1 w2 w3 /\
  calc_box E G ig v (Some (y, x, y + 1, x + 1)%Z) (Fin la) (Fin lo) =
    if (is_valid w0 && is_valid w1 && is_valid w2 && is_valid w3)%bool
    then bilinear_cell E (Fin lo) (Fin la) (Fin x0) (Fin x1) (Fin x2) (Fin x3) (Fin y0) (Fin y1) (Fin y2) (Fin y3) w0 w1 w2 w3
    else (k <- lookup_grid G ig (Fin la) (Fin lo) ;; at_grid v k).
Proof.
  intros R V H1 H2 H3 H4. destruct (is_grid_rect _ _ _ _ _ _ _ HI) as [R1 R2]. pose proof (grid_inv _ _ _ _ _ _ _ HI) as (E1 & E2 & _).
  destruct (corners_some Y X lats y x R1 H1 H2 H3 H4) as (y0 & y1 & y2 & y3 & Cy).
  destruct (corners_some Y X lons y x R2 H1 H2 H3 H4) as (x0 & x1 & x2 & x3 & Cx).
  destruct (corners_some Y X v y x R H1 H2 H3 H4) as (w0 & w1 & w2 & w3 & Cv).
  exists y0, y1, y2, y3, x0, x1, x2, x3, w0, w1, w2, w3. split; [exact Cy|]. split; [exact Cx|]. split; [exact Cv|].
  apply corners_Fin in Cy as (A0 & A1 & A2 & A3). apply corners_Fin in Cx as (B0 & B1 & B2 & B3). destruct Cv as (C0 & C1 & C2 & C3).
  unfold calc_box. rewrite E1, E2, B0, B1, B2, B3, A0, A1, A2, A3, C0, C1, C2, C3. reflexivity.
Qed.
(** parallelogram cells *)
Lemma loc_parallelogram v la lo : parallelogram_cells lats lons -> rect Y X v -> valid_loc t la ->
  (t = Geodetic \/ (valid_loc Geodetic la /\ valid_all2 Geodetic lats)) ->
  exists b r, get_box G ig (Fin la) (Fin lo) = Ok b /\ calc_box E G ig v b (Fin la) (Fin lo) = Ok r /\ bilinear_at G t lats lons v la lo r.
Proof.
  intros HP R V HA. destruct (is_grid_rect _ _ _ _ _ _ _ HI) as [R1 R2].
  destruct (c68_partial G t Y X lats lons ig la lo HG HI V HA) as [b Hb].
  destruct (c40_all G t Y X lats lons ig la lo HG HI V) as (yn & xn & Hn & Hyn & Hxn & HC & B1 & B2 & B3 & _).
  destruct (rect_get2 Y X v yn xn R Hyn Hxn) as [r Hr].
  assert (L : (k <- lookup_grid G ig (Fin la) (Fin lo) ;; at_grid v k) = Ok r).
  { unfold lookup_grid. rewrite Hn. cbn. exact Hr. }
  exists b. destruct b as [[[[y x] y'] x']|].
  - destruct (B2 _ _ _ _ Hb) as (P1 & -> & P2 & P3 & -> & P4 & Cy & Cx & IC).
    destruct (calc_box_cell v y x la lo R V P1 P2 P3 P4) as (y0 & y1 & y2 & y3 & x0 & x1 & x2 & x3 & w0 & w1 & w2 & w3 & Ky & Kx & Kv & Ec).
    rewrite Ec. clear Ec.
    apply (proj1 (cell_param lats lons y x yn xn la lo HP (conj Cy Cx) (ex_intro _ y0 (ex_intro _ y1 (ex_intro _ y2 (ex_intro _ y3 Ky)))) (ex_intro _ x0 (ex_intro _ x1 (ex_intro _ x2 (ex_intro _ x3 Kx)))))) in IC.
    destruct IC as (s & u & Us & Uu & CP).
    destruct (is_valid w0 && is_valid w1 && is_valid w2 && is_valid w3)%bool eqn:EV.
    + apply finite_dec in EV as (v0 & v1 & v2 & v3 & -> & -> & -> & ->).
      exists (Fin (blend v0 v1 v2 v3 s u)). split; [exact Hb|]. split.
      * destruct CP as (b0 & b1 & b2 & b3 & c0 & c1 & c2 & c3 & Dy & Dx & -> & ->).
        destruct (corners_fun _ _ _ _ _ _ _ _ _ _ _ Dy Ky) as (-> & -> & -> & ->). destruct (corners_fun _ _ _ _ _ _ _ _ _ _ _ Dx Kx) as (-> & -> & -> & ->).
        destruct (HP y x _ _ _ _ _ _ _ _ Ky Kx) as [[F1 F2] N]. apply cell_parallelogram; auto.
      * exists yn, xn. split; [exact HC|]. right. exists y, x, s, u, (Fin v0), (Fin v1), (Fin v2), (Fin v3). split; [split; assumption|].
        split; [exact Us|]. split; [exact Uu|]. split; [exact CP|]. split; [exact Kv|]. split.
        -- intros ? ? ? ? Q0 Q1 Q2 Q3. injection Q0 as <-. injection Q1 as <-. injection Q2 as <-. injection Q3 as <-. reflexivity.
        -- intros NF. exfalso. apply NF. unfold all_finite. eauto 10.
    + exists r. split; [exact Hb|]. split; [exact L|]. exists yn, xn. split; [exact HC|]. right.
      exists y, x, s, u, w0, w1, w2, w3. split; [split; assumption|].
      split; [exact Us|]. split; [exact Uu|]. split; [exact CP|]. split; [exact Kv|]. split; [|intros _; exact Hr].
      intros v0 v1 v2 v3 -> -> -> ->. discriminate.
  - exists r. split; [exact Hb|]. split; [exact L|]. exists yn, xn. split; [exact HC|]. left. split; [|exact Hr].
    intros y x HCo IP. pose proof IP as (s & u & _ & _ & y0 & y1 & y2 & y3 & x0 & x1 & x2 & x3 & Ky & Kx & _).
    destruct (corner_inside _ _ _ _ _ _ _ R1 Ky) as (P1 & P2 & P3 & P4).
    apply (proj2 (cell_param lats lons y x yn xn la lo HP HCo (ex_intro _ y0 (ex_intro _ y1 (ex_intro _ y2 (ex_intro _ y3 Ky)))) (ex_intro _ x0 (ex_intro _ x1 (ex_intro _ x2 (ex_intro _ x3 Kx)))))) in IP.
    revert IP. destruct HCo as [Cy Cx]. apply B3; auto; lia.
Qed.
(** cells of any shape *)
Lemma loc_mean v la lo b r : rect Y X v -> valid_loc t la -> get_box G ig (Fin la) (Fin lo) = Ok b ->
  calc_box E G ig v b (Fin la) (Fin lo) = Ok r -> bilinear_mean G t lats lons v la lo r.
Proof.
  intros R V Hb Hc. destruct (c40_all G t Y X lats lons ig la lo HG HI V) as (yn & xn & Hn & Hyn & Hxn & HC & B1 & B2 & B3 & _).
  destruct (rect_get2 Y X v yn xn R Hyn Hxn) as [r' Hr].
  assert (L : (k <- lookup_grid G ig (Fin la) (Fin lo) ;; at_grid v k) = Ok r').
  { unfold lookup_grid. rewrite Hn. cbn. exact Hr. }
  exists yn, xn. split; [exact HC|]. destruct b as [[[[y x] y'] x']|].
  - destruct (B2 _ _ _ _ Hb) as (P1 & -> & P2 & P3 & -> & P4 & Cy & Cx & IC).
    destruct (calc_box_cell v y x la lo R V P1 P2 P3 P4) as (y0 & y1 & y2 & y3 & x0 & x1 & x2 & x3 & w0 & w1 & w2 & w3 & Ky & Kx & Kv & Ec).
    rewrite Ec in Hc. destruct (is_valid w0 && is_valid w1 && is_valid w2 && is_valid w3)%bool eqn:EV; [|left; congruence].
    apply finite_dec in EV as (v0 & v1 & v2 & v3 & -> & -> & -> & ->).
    destruct (cell_blend _ _ _ _ _ _ _ _ _ _ _ _ _ _ _ _ Hc) as (s & u & Us & Uu & ->).
    right. exists y, x, v0, v1, v2, v3, s, u. split; [split; assumption|]. auto.
  - left. cbn in Hc. congruence.
Qed.
End OnGrid.

(** ** the four overloads *)
Section Wrap.
Variables (E : ext) (G : geo) (t : ctype) (Y X : Z) (lats lons : list (list Qc)) (ig : grid).
Hypothesis HG : geo_ok G.
Hypothesis HI : is_grid G t Y X lats lons ig.
(* what holds at each location *)
Variable P : vec2 -> Qc -> Qc -> val -> Prop.
Variable OKL : Qc -> Prop.
Hypothesis LOC : forall la lo, OKL la -> exists b, get_box G ig (Fin la) (Fin lo) = Ok b /\
  forall v, rect Y X v -> exists r, calc_box E G ig v b (Fin la) (Fin lo) = Ok r /\ P v la lo r.
Lemma loc_P v la lo : OKL la -> rect Y X v -> exists r, bilinear_loc E G ig v (Fin la) (Fin lo) = Ok r /\ P v la lo r.
Proof. intros K R. destruct (LOC la lo K) as (b & Hb & Hc). destruct (Hc v R) as (r & Hr & Hp). exists r. unfold bilinear_loc. rewrite Hb. cbn. auto. Qed.
Lemma loc3_P (v : vec3) la lo : OKL la -> Forall (rect Y X) v ->
  exists rs, bilinear_loc3 E G ig v (Fin la) (Fin lo) = Ok rs /\ zlen rs = zlen v /\
    forall k vk, znth v k = Ok vk -> exists r, znth rs k = Ok r /\ P vk la lo r.
Proof.
  intros K R. rewrite Forall_forall in R. destruct (LOC la lo K) as (b & Hb & Hc).
  destruct (mapM_total (fun vt => calc_box E G ig vt b (Fin la) (Fin lo)) (fun vt r => P vt la lo r) v) as (rs & Hrs & Hl & Hk).
  { intros vt Hin. destruct (Hc vt (R _ Hin)) as (r & Hr & Hp). eauto. }
  exists rs. unfold bilinear_loc3. rewrite Hb. cbn [bind]. split; [exact Hrs|]. split; [exact Hl|].
  intros k vk Hv. destruct (Hk k vk Hv) as (r & Hr & _ & Hp). eauto.
Qed.
Lemma wrap_gg2 t' Y' X' lats' lons' og v : is_grid G t' Y' X' lats' lons' og -> Forall (Forall OKL) lats' -> rect Y X v ->
  exists out, bilinear_gg2 E G ig og v = Ok out /\ rect Y' X' out /\ each_grid lats' lons' (P v) out.
Proof.
  intros HO HV R. unfold bilinear_gg2. rewrite (compat_grid2_ok _ _ _ _ _ _ _ _ HI R). cbn [bind negb].
  rewrite (out_shape_ok _ _ _ _ _ _ _ HO). cbn [bind]. rewrite (is_empty_false _ _ _ _ _ _ _ HI). cbn [bind].
  assert (OK : forall i j la, get2 lats' i j = Ok la -> OKL la).
  { intros i j la H. unfold get2 in H. apply bind_Ok in H as (r & Hr & Hx). rewrite Forall_forall in HV. specialize (HV _ (znth_In _ _ _ Hr)).
    rewrite Forall_forall in HV. apply HV. eapply znth_In; eauto. }
  destruct (out_grid G t' Y' X' lats' lons' og (bilinear_loc E G ig v) MV HO) as (out & Ho & Hr & K).
  { intros i j la lo Hla _. destruct (loc_P v la lo) as (r & Hx & _); eauto. }
  exists out. split; [exact Ho|]. split; [exact Hr|]. intros i j la lo Hla Hlo. destruct (K i j la lo Hla Hlo) as (x & Hx & Hg).
  exists x. split; [exact Hg|]. destruct (loc_P v la lo) as (r & Hx' & Hp); eauto. congruence.
Qed.
Lemma wrap_gp2 t' las' los' op v : is_points G t' las' los' op -> Forall OKL las' -> rect Y X v ->
  exists out, bilinear_gp2 E G ig op v = Ok out /\ each_point las' los' (P v) out.
Proof.
  intros HO HV R. unfold bilinear_gp2. rewrite (compat_grid2_ok _ _ _ _ _ _ _ _ HI R). cbn [bind negb].
  rewrite (is_empty_false _ _ _ _ _ _ _ HI). cbn [bind].
  assert (OK : forall i la, znth las' i = Ok la -> OKL la).
  { intros i la H. rewrite Forall_forall in HV. apply HV. eapply znth_In; eauto. }
  destruct (out_points G t' las' los' op (bilinear_loc E G ig v) MV HO) as (out & Ho & L & K).
  { intros i la lo Hla _. destruct (loc_P v la lo) as (r & Hx & _); eauto. }
  exists out. split; [exact Ho|]. split; [exact L|]. intros i la lo Hla Hlo. destruct (K i la lo Hla Hlo) as (x & Hx & Hg).
  exists x. split; [exact Hg|]. destruct (loc_P v la lo) as (r & Hx' & Hp); eauto. congruence.
Qed.
Lemma Forall2_znth {A B} (R : A -> B -> Prop) l m : zlen m = zlen l -> (forall k a, znth l k = Ok a -> exists b, znth m k = Ok b /\ R a b) -> Forall2 R l m.
Proof.
  revert m. induction l as [|a l IH]; intros [|b m] HL HK.
  - constructor.
  - rewrite zlen_cons in HL. cbn in HL. pose proof (zlen_nonneg m). exfalso. change (zlen (@nil A)) with 0%Z in HL. lia.
  - rewrite zlen_cons in HL. pose proof (zlen_nonneg l). change (zlen (@nil B)) with 0%Z in HL. lia.
  - rewrite !zlen_cons in HL. constructor.
    + destruct (HK 0%Z a) as (b' & Hb & Hr); [apply znth_cons0|]. rewrite znth_cons0 in Hb. congruence.
    + apply IH; [lia|]. intros k x Hk. pose proof (znth_range _ _ _ Hk). destruct (HK (k + 1)%Z x) as (y & Hy & Hr).
      * rewrite znth_consS by lia. rewrite Z.add_simpl_r. exact Hk.
      * rewrite znth_consS in Hy by lia. rewrite Z.add_simpl_r in Hy. eauto.
Qed.
Lemma wrap_gg3 t' Y' X' lats' lons' og v : is_grid G t' Y' X' lats' lons' og -> Forall (Forall OKL) lats' -> Forall (rect Y X) v ->
  exists out, bilinear_gg3 E G ig og v = Ok out /\ Forall2 (fun vt ot => rect Y' X' ot /\ each_grid lats' lons' (P vt) ot) v out.
Proof.
  intros HO HV R. pose proof (is_grid_pos _ _ _ _ _ _ _ HO) as [HY' HX']. destruct (is_grid_rect _ _ _ _ _ _ _ HO) as [R1' R2'].
  unfold bilinear_gg3. rewrite (compat_grid3_ok _ _ _ _ _ _ _ _ HI R). cbn [bind negb].
  rewrite (out_shape_ok _ _ _ _ _ _ _ HO). cbn [bind]. rewrite (is_empty_false _ _ _ _ _ _ _ HI). cbn [bind].
  assert (OK : forall i j la, get2 lats' i j = Ok la -> OKL la).
  { intros i j la H. unfold get2 in H. apply bind_Ok in H as (r & Hr & Hx). rewrite Forall_forall in HV. specialize (HV _ (znth_In _ _ _ Hr)).
    rewrite Forall_forall in HV. apply HV. eapply znth_In; eauto. }
  destruct (out_grid G t' Y' X' lats' lons' og (bilinear_loc3 E G ig v) [] HO) as (temps & Ho & Hr & K).
  { intros i j la lo Hla _. destruct (loc3_P v la lo) as (r & Hx & _); eauto. }
  rewrite Ho. cbn [bind].
  destruct (mapM_total (fun s => tab2 Y' X' (fun i j => temp <- get2 temps i j ;; znth temp s))
     (fun s ot => rect Y' X' ot /\ forall vt, znth v s = Ok vt -> each_grid lats' lons' (P vt) ot) (zrange 0 (zlen v))) as (out & Hout & Hl & Hk).
  { intros s Hs. apply in_zrange in Hs. destruct (znth_some v s) as [vt Hvt]; [lia|].
    destruct (tab2_total Y' X' (fun i j => temp <- get2 temps i j ;; znth temp s)
      (fun i j x => forall la lo, get2 lats' i j = Ok la -> get2 lons' i j = Ok lo -> P vt la lo x)) as (ot & Hot & Hrt & Kt); [lia|lia| |].
    - intros i j Hi Hj. destruct (rect_get2 _ _ _ _ _ R1' Hi Hj) as [la Hla]. destruct (rect_get2 _ _ _ _ _ R2' Hi Hj) as [lo Hlo].
      destruct (K i j la lo Hla Hlo) as (rs & Hrs & Hg). destruct (loc3_P v la lo) as (rs' & Hrs' & _ & Hp); [eauto|exact R|].
      assert (rs' = rs) by congruence. subst rs'. destruct (Hp s vt Hvt) as (r & Hr' & Pr). rewrite Hg. cbn [bind]. exists r. split; [exact Hr'|].
      intros la' lo' A1 A2. congruence.
    - exists ot. split; [exact Hot|]. split; [exact Hrt|]. intros vt' Hvt'. assert (vt' = vt) by congruence. subst vt'.
      intros i j la lo Hla Hlo. destruct (get2_range _ _ _ _ _ _ R1' Hla) as [Hi Hj]. destruct (Kt i j Hi Hj) as (x & Hx & _ & Px). exists x. auto. }
  exists out. split; [exact Hout|]. rewrite zlen_zrange in Hl. pose proof (zlen_nonneg v). apply Forall2_znth; [lia|].
  intros k vk Hv. pose proof (znth_range _ _ _ Hv). destruct (Hk k k) as (ot & Hot & _ & Q1 & Q2). { rewrite znth_zrange by lia. f_equal; lia. }
  exists ot. split; [exact Hot|]. split; [exact Q1|]. apply Q2. exact Hv.
Qed.
Lemma wrap_gp3 t' las' los' op v : is_points G t' las' los' op -> Forall OKL las' -> Forall (rect Y X) v ->
  exists out, bilinear_gp3 E G ig op v = Ok out /\ Forall2 (fun vt ot => each_point las' los' (P vt) ot) v out.
Proof.
  intros HO HV R. destruct (P_Points.points_inv _ _ _ _ _ HO) as (HL' & E1' & E2' & _). pose proof (zlen_nonneg las') as Hn.
  unfold bilinear_gp3. rewrite (compat_grid3_ok _ _ _ _ _ _ _ _ HI R). cbn [bind negb].
  rewrite (is_empty_false _ _ _ _ _ _ _ HI). cbn [bind].
  assert (OK : forall i la, znth las' i = Ok la -> OKL la).
  { intros i la H. rewrite Forall_forall in HV. apply HV. eapply znth_In; eauto. }
  destruct (out_points G t' las' los' op (bilinear_loc3 E G ig v) [] HO) as (temps & Ho & L & K).
  { intros i la lo Hla _. destruct (loc3_P v la lo) as (r & Hx & _); eauto. }
  rewrite Ho. cbn [bind].
  assert (En : points_size op = zlen las') by (unfold points_size; rewrite E1'; apply zlen_map). rewrite En.
  destruct (mapM_total (fun s => mapM (fun i => temp <- znth temps i ;; znth temp s) (zrange 0 (zlen las')))
     (fun s ot => forall vt, znth v s = Ok vt -> each_point las' los' (P vt) ot) (zrange 0 (zlen v))) as (out & Hout & Hl & Hk).
  { intros s Hs. apply in_zrange in Hs. destruct (znth_some v s) as [vt Hvt]; [lia|].
    destruct (mapM_total (fun i => temp <- znth temps i ;; znth temp s)
      (fun i x => forall la lo, znth las' i = Ok la -> znth los' i = Ok lo -> P vt la lo x) (zrange 0 (zlen las'))) as (ot & Hot & Hlt & Kt).
    - intros i Hi. apply in_zrange in Hi. destruct (znth_some las' i) as [la Hla]; [lia|]. destruct (znth_some los' i) as [lo Hlo]; [lia|].
      destruct (K i la lo Hla Hlo) as (rs & Hrs & Hg). destruct (loc3_P v la lo) as (rs' & Hrs' & _ & Hp); [eauto|exact R|].
      assert (rs' = rs) by congruence. subst rs'. destruct (Hp s vt Hvt) as (r & Hr' & Pr). rewrite Hg. cbn [bind]. exists r. split; [exact Hr'|].
      intros la' lo' A1 A2. congruence.
    - exists ot. split; [exact Hot|]. intros vt' Hvt'. assert (vt' = vt) by congruence. subst vt'. rewrite zlen_zrange in Hlt. split; [lia|].
      intros i la lo Hla Hlo. pose proof (znth_range _ _ _ Hla).
      destruct (Kt i i) as (x & Hx & _ & Px). { rewrite znth_zrange by lia. f_equal; lia. } exists x. auto. }
  exists out. split; [exact Hout|]. rewrite zlen_zrange in Hl. pose proof (zlen_nonneg v). apply Forall2_znth; [lia|].
  intros k vk Hv. pose proof (znth_range _ _ _ Hv). destruct (Hk k k) as (ot & Hot & _ & Q). { rewrite znth_zrange by lia. f_equal; lia. }
  exists ot. split; [exact Hot|]. apply Q. exact Hv.
Qed.
End Wrap.

(** ** the property *)
Lemma LOC_ok E G t Y X lats lons ig (HG : geo_ok G) (HI : is_grid G t Y X lats lons ig) : parallelogram_cells lats lons ->
  forall la lo, (valid_loc t la /\ (t = Geodetic \/ (valid_loc Geodetic la /\ valid_all2 Geodetic lats))) ->
  exists b, get_box G ig (Fin la) (Fin lo) = Ok b /\
  forall v, rect Y X v -> exists r, calc_box E G ig v b (Fin la) (Fin lo) = Ok r /\ bilinear_at G t lats lons v la lo r.
Proof.
  intros HP la lo [V HA]. destruct (c68_partial G t Y X lats lons ig la lo HG HI V HA) as [b Hb]. exists b. split; [exact Hb|].
  intros v R. destruct (loc_parallelogram E G t Y X lats lons ig HG HI v la lo HP R V HA) as (b' & r & Hb' & Hc & Hp).
  assert (b' = b) by congruence. subst b'. eauto.
Qed.
Lemma c43_grid : forall E G t Y X lats lons ig t' Y' X' lats' lons' og, geo_ok G -> is_grid G t Y X lats lons ig -> parallelogram_cells lats lons ->
  is_grid G t' Y' X' lats' lons' og -> valid_all2 t lats' -> box_accepted t lats (concat lats') ->
  (forall v, rect Y X v -> exists out, bilinear_gg2 E G ig og v = Ok out /\ rect Y' X' out /\ each_grid lats' lons' (bilinear_at G t lats lons v) out) /\
  (forall v, Forall (rect Y X) v -> exists out, bilinear_gg3 E G ig og v = Ok out /\
     Forall2 (fun vt ot => rect Y' X' ot /\ each_grid lats' lons' (bilinear_at G t lats lons vt) ot) v out).
Proof.
  intros E G t Y X lats lons ig t' Y' X' lats' lons' og HG HI HP HO HV HA.
  assert (OK : Forall (Forall (fun la => valid_loc t la /\ (t = Geodetic \/ (valid_loc Geodetic la /\ valid_all2 Geodetic lats)))) lats').
  { unfold valid_all2 in HV. rewrite Forall_forall in HV |- *. intros r Hr. specialize (HV r Hr). rewrite Forall_forall in HV |- *. intros la Hla.
    split; [auto|]. destruct HA as [->|[A1 A2]]; [left; reflexivity|right; split; [|exact A2]]. unfold valid_all in A1. rewrite Forall_forall in A1.
    apply A1. apply in_concat. eauto. }
  split; intros v R.
  - exact (wrap_gg2 E G t Y X lats lons ig HI (bilinear_at G t lats lons) _ (LOC_ok E G t Y X lats lons ig HG HI HP) t' Y' X' lats' lons' og v HO OK R).
  - exact (wrap_gg3 E G t Y X lats lons ig HI (bilinear_at G t lats lons) _ (LOC_ok E G t Y X lats lons ig HG HI HP) t' Y' X' lats' lons' og v HO OK R).
Qed.
Lemma c43_points : forall E G t Y X lats lons ig t' las' los' op, geo_ok G -> is_grid G t Y X lats lons ig -> parallelogram_cells lats lons ->
  is_points G t' las' los' op -> valid_all t las' -> box_accepted t lats las' ->
  (forall v, rect Y X v -> exists out, bilinear_gp2 E G ig op v = Ok out /\ each_point las' los' (bilinear_at G t lats lons v) out) /\
  (forall v, Forall (rect Y X) v -> exists out, bilinear_gp3 E G ig op v = Ok out /\
     Forall2 (fun vt ot => each_point las' los' (bilinear_at G t lats lons vt) ot) v out).
Proof.
  intros E G t Y X lats lons ig t' las' los' op HG HI HP HO HV HA.
  assert (OK : Forall (fun la => valid_loc t la /\ (t = Geodetic \/ (valid_loc Geodetic la /\ valid_all2 Geodetic lats))) las').
  { unfold valid_all in HV. rewrite Forall_forall in HV |- *. intros la Hla.
    split; [auto|]. destruct HA as [->|[A1 A2]]; [left; reflexivity|right; split; [|exact A2]]. unfold valid_all in A1. rewrite Forall_forall in A1. auto. }
  split; intros v R.
  - exact (wrap_gp2 E G t Y X lats lons ig HI (bilinear_at G t lats lons) _ (LOC_ok E G t Y X lats lons ig HG HI HP) t' las' los' op v HO OK R).
  - exact (wrap_gp3 E G t Y X lats lons ig HI (bilinear_at G t lats lons) _ (LOC_ok E G t Y X lats lons ig HG HI HP) t' las' los' op v HO OK R).
Qed.
(** cells of any shape: whatever is returned is a weighted mean *)
Lemma omp_Ok {A} (r : res A) x : omp r = Ok x -> r = Ok x.
Proof. destruct r; cbn; congruence. Qed.
Lemma c43_mean : forall E G t Y X lats lons ig t' las' los' op v out, geo_ok G -> is_grid G t Y X lats lons ig ->
  is_points G t' las' los' op -> valid_all t las' -> rect Y X v -> bilinear_gp2 E G ig op v = Ok out ->
  each_point las' los' (bilinear_mean G t lats lons v) out.
Proof.
  intros E G t Y X lats lons ig t' las' los' op v out HG HI HO HV R. unfold bilinear_gp2.
  rewrite (compat_grid2_ok _ _ _ _ _ _ _ _ HI R). cbn [bind negb]. rewrite (is_empty_false _ _ _ _ _ _ _ HI). cbn [bind]. intros H. apply omp_Ok in H.
  destruct (P_Points.points_inv _ _ _ _ _ HO) as (HL' & E1' & E2' & _). pose proof (zlen_nonneg las') as Hn.
  assert (En : points_size op = zlen las') by (unfold points_size; rewrite E1'; apply zlen_map). rewrite En in H.
  rewrite for1_init_tab in H by lia. destruct (mapM_inv _ _ _ H) as [L K]. rewrite zlen_zrange in L.
  split; [lia|]. intros i la lo Hla Hlo. pose proof (znth_range _ _ _ Hla).
  destruct (K i i) as (r & Hr & Hf). { rewrite znth_zrange by lia. f_equal; lia. }
  exists r. split; [exact Hr|]. unfold pt_loc in Hf. rewrite E1', E2', !znth_map, Hla, Hlo in Hf. cbn [bind] in Hf.
  unfold bilinear_loc in Hf. apply bind_Ok in Hf as (b & Hb & Hc). eapply loc_mean; eauto. eapply valid_znth; eauto.
Qed.
(** ** consequences *)
(** in a cell that is a parallelogram the position determines (s, u) *)
Lemma cross_solve a b c d s u : a * d - b * c <> 0 -> s * a + u * b = 0 -> s * c + u * d = 0 -> s = 0 /\ u = 0.
Proof.
  intros N H1 H2.
  assert (K1 : s * (a * d - b * c) = 0). { transitivity ((s * a + u * b) * d - (s * c + u * d) * b); [ring|rewrite H1, H2; ring]. }
  assert (K2 : u * (a * d - b * c) = 0). { transitivity ((s * c + u * d) * a - (s * a + u * b) * c); [ring|rewrite H1, H2; ring]. }
  apply Qcmult_integral in K1. apply Qcmult_integral in K2. intuition.
Qed.
Lemma position_unique lats lons y x la lo s u s' u' : parallelogram_cells lats lons ->
  cell_position lats lons y x la lo s u -> cell_position lats lons y x la lo s' u' -> s = s' /\ u = u'.
Proof.
  intros HP (y0 & y1 & y2 & y3 & x0 & x1 & x2 & x3 & Cy & Cx & -> & ->) (b0 & b1 & b2 & b3 & c0 & c1 & c2 & c3 & Dy & Dx & E1 & E2).
  destruct (corners_fun _ _ _ _ _ _ _ _ _ _ _ Dy Cy) as (-> & -> & -> & ->). destruct (corners_fun _ _ _ _ _ _ _ _ _ _ _ Dx Cx) as (-> & -> & -> & ->).
  destruct (HP y x _ _ _ _ _ _ _ _ Cy Cx) as [_ N]. unfold cross in N.
  destruct (cross_solve (x2 - x0) (x1 - x0) (y2 - y0) (y1 - y0) (s - s') (u - u')) as [Z1 Z2].
  - intros K. apply N. rewrite <- K. ring.
  - transitivity (x0 + s * (x2 - x0) + u * (x1 - x0) - (x0 + s' * (x2 - x0) + u' * (x1 - x0))); [ring|]. rewrite E1. ring.
  - transitivity (y0 + s * (y2 - y0) + u * (y1 - y0) - (y0 + s' * (y2 - y0) + u' * (y1 - y0))); [ring|]. rewrite E2. ring.
  - split; [transitivity (s - s' + s')|transitivity (u - u' + u')]; try ring; [rewrite Z1|rewrite Z2]; ring.
Qed.
(** at a grid point that shares its position with no other one, the value is the one given *)
Lemma sqdist_zero p q : sqdist p q <= 0 -> q = p.
Proof. intros H. symmetry. apply P_Neighbours.sqdist_0. apply Qcle_antisym; [exact H|apply qle0]. Qed.
Lemma c43_at_grid_point : forall G t lats lons v i j la lo r, parallelogram_cells lats lons ->
  get2 lats i j = Ok la -> get2 lons i j = Ok lo ->
  (forall i' j', grid_at G t lats lons i' j' (position G t la lo) -> (i', j') = (i, j)) ->
  bilinear_at G t lats lons v la lo r -> get2 v i j = Ok r.
Proof.
  intros G t lats lons v i j la lo r HP Hla Hlo HU (yn & xn & (q & Hq & _ & HM) & H).
  assert (Eq : q = position G t la lo).
  { apply sqdist_zero. eapply Qcle_trans; [apply (HM (i, j) (position G t la lo))|].
    - exists la, lo. auto.
    - left. reflexivity.
    - rewrite (proj2 (P_Neighbours.sqdist_0 _ _) eq_refl). apply Qcle_refl. }
  subst q. pose proof (HU yn xn Hq) as K. injection K as -> ->. destruct H as [[_ H]|H]; [exact H|].
  destruct H as (y & x & s & u & w0 & w1 & w2 & w3 & [Cy Cx] & _ & _ & CP & Cv & F1 & F2).
  destruct (is_valid w0 && is_valid w1 && is_valid w2 && is_valid w3)%bool eqn:EV.
  2: { apply F2. intros NF. apply finite_dec in NF. congruence. }
  apply finite_dec in EV as (v0 & v1 & v2 & v3 & -> & -> & -> & ->). rewrite (F1 v0 v1 v2 v3) by reflexivity.
  destruct Cv as (V0 & V1 & V2 & V3). pose proof CP as (y0 & y1 & y2 & y3 & x0 & x1 & x2 & x3 & Ky & Kx & _).
  destruct (HP y x _ _ _ _ _ _ _ _ Ky Kx) as [[E1 E2] _]. pose proof Ky as (A0 & A1 & A2 & A3). pose proof Kx as (B0 & B1 & B2 & B3).
  destruct (blend_corners v0 v1 v2 v3) as (Q0 & Q1 & Q2 & Q3).
  assert (U : forall s' u', lo = x0 + s' * (x2 - x0) + u' * (x1 - x0) -> la = y0 + s' * (y2 - y0) + u' * (y1 - y0) -> s = s' /\ u = u').
  { intros s' u' D1 D2. eapply position_unique; [exact HP|exact CP|]. exists y0, y1, y2, y3, x0, x1, x2, x3. auto. }
  destruct Cy as [-> | ->], Cx as [-> | ->].
  - destruct (U 0 0) as [-> ->]; [replace lo with x0 by congruence; ring|replace la with y0 by congruence; ring|]. rewrite Q0. exact V0.
  - destruct (U 1 0) as [-> ->]; [replace lo with x2 by congruence; ring|replace la with y2 by congruence; ring|]. rewrite Q2. exact V2.
  - destruct (U 0 1) as [-> ->]; [replace lo with x1 by congruence; ring|replace la with y1 by congruence; ring|]. rewrite Q1. exact V1.
  - destruct (U 1 1) as [-> ->]; [replace lo with x3 by congruence; rewrite E1; ring|replace la with y3 by congruence; rewrite E2; ring|]. rewrite Q3. exact V3.
Qed.
(** a field that is affine in the coordinates is reproduced in every cell *)
Lemma c43_affine : forall G t lats lons v la lo r (a b c : Qc), parallelogram_cells lats lons ->
  (forall i j y x w, get2 lats i j = Ok y -> get2 lons i j = Ok x -> get2 v i j = Ok w -> w = Fin (a + b * x + c * y)%Qc) ->
  (exists y x, (forall yn xn, closest (grid_at' G t lats lons) (position G t la lo) true (yn, xn) -> corner_of yn xn y x) /\ in_pcell lats lons y x la lo) ->
  bilinear_at G t lats lons v la lo r -> r = Fin (a + b * lo + c * la)%Qc.
Proof.
  intros G t lats lons v la lo r a b c HP HF (y' & x' & HI & IP) (yn & xn & HC & H). specialize (HI _ _ HC).
  destruct H as [[H _]|H]; [exfalso; exact (H _ _ HI IP)|].
  destruct H as (y & x & s & u & w0 & w1 & w2 & w3 & _ & _ & _ & CP & (V0 & V1 & V2 & V3) & F1 & F2).
  destruct CP as (y0 & y1 & y2 & y3 & x0 & x1 & x2 & x3 & Ky & Kx & -> & ->).
  destruct (HP y x _ _ _ _ _ _ _ _ Ky Kx) as [[-> ->] _]. destruct Ky as (A0 & A1 & A2 & A3). destruct Kx as (B0 & B1 & B2 & B3).
  rewrite (F1 _ _ _ _ (HF _ _ _ _ _ A0 B0 V0) (HF _ _ _ _ _ A1 B1 V1) (HF _ _ _ _ _ A2 B2 V2) (HF _ _ _ _ _ A3 B3 V3)).
  f_equal. exact (blend_affine a b c x0 x1 x2 y0 y1 y2 s u).
Qed.
(** the value lies between the smallest and the largest corner value *)
Lemma c43_bounds : forall v0 v1 v2 v3 s u m M, unit_range s -> unit_range u -> (m <= v0 <= M)%Qc -> (m <= v1 <= M)%Qc -> (m <= v2 <= M)%Qc -> (m <= v3 <= M)%Qc ->
  (m <= blend v0 v1 v2 v3 s u <= M)%Qc.
Proof. exact blend_bounds. Qed.
