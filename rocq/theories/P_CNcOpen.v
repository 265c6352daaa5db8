(** Proofs about opening a NetCDF file of the client. *)
From Coq Require Import Ascii String.
From Verif Require Import Base QcTac ListLib M_COpt S_COpt M_CUtil S_CUtil M_CCal P_CCal M_CTree S_CTree P_CTree M_CDown P_CDown M_CKrig P_COpt M_CFile P_CFile M_CNc S_CNc P_CNc P_CNc2 P_CNc3 P_CNc4 P_CNc5 P_CNc6 P_CNc7 P_CNc8 M_CPar S_CPar P_CPar M_CParNc S_CParNc P_CParNc M_CNcOpen S_CNcOpen.
Local Open Scope Z_scope.

Lemma grid_map {A B} (f : A -> res B) (Q : A -> B -> Prop) nY nX g : rect nY nX g -> (forall i j a, 0 <= i < nY -> 0 <= j < nX -> get2 g i j = Ok a -> exists b, f a = Ok b /\ Q a b) ->
  exists r, mapM (mapM f) g = Ok r /\ rect nY nX r /\ forall i j a, 0 <= i < nY -> 0 <= j < nX -> get2 g i j = Ok a -> exists b, get2 r i j = Ok b /\ Q a b.
Proof.
  intros [RY RX] H. destruct (mapM_total (mapM f) (fun row row' => zlen row' = zlen row /\ forall j a, znth row j = Ok a -> exists b, znth row' j = Ok b /\ Q a b) g) as (r & E & L & G).
  { intros row Hrow. destruct (In_znth _ _ Hrow) as [i Hi]. pose proof (znth_range _ _ _ Hi). destruct (mapM_total f Q row) as (row' & E & L & G).
    - intros a Ha. destruct (In_znth _ _ Ha) as [j Hj]. pose proof (znth_range _ _ _ Hj). rewrite (RX row Hrow) in *. apply (H i j a); [lia|lia|]. unfold get2. rewrite Hi. exact Hj.
    - exists row'. split; [exact E|]. split; [exact L|]. intros j a Ha. destruct (G j a Ha) as (b & Hb & _ & HQ). eauto. }
  exists r. split; [exact E|]. split.
  - split; [lia|]. intros row' Hr. destruct (In_znth _ _ Hr) as [i Hi]. pose proof (znth_range _ _ _ Hi). destruct (znth_some g i) as [row Hrow]; [lia|]. destruct (G i row Hrow) as (row2 & E2 & _ & [L2 _]). rewrite Hi in E2. injection E2 as ->. rewrite L2. apply RX, (znth_In _ _ _ Hrow).
  - intros i j a Hi Hj Ha. unfold get2 in Ha |- *. destruct (znth g i) as [row| | |] eqn:Hrow; try discriminate. cbn [bind] in Ha. destruct (G i row Hrow) as (row2 & -> & _ & [_ G2]). cbn [bind]. apply G2, Ha.
Qed.
Lemma grid_none {A} (p : A -> bool) nY nX (g : list (list A)) : rect nY nX g -> (forall i j a, 0 <= i < nY -> 0 <= j < nX -> get2 g i j = Ok a -> p a = false) -> existsb (existsb p) g = false.
Proof.
  intros [RY RX] H. destruct (existsb (existsb p) g) eqn:E; [exfalso|reflexivity]. apply existsb_exists in E as (row & Hrow & E). apply existsb_exists in E as (a & Ha & E).
  destruct (In_znth _ _ Hrow) as [i Hi]. destruct (In_znth _ _ Ha) as [j Hj]. pose proof (znth_range _ _ _ Hi). pose proof (znth_range _ _ _ Hj). rewrite (RX row Hrow) in *. rewrite (H i j a) in E; [discriminate|lia|lia|]. unfold get2. rewrite Hi. exact Hj.
Qed.
Lemma missing_grid_ok nY nX g : rect nY nX g -> rect nY nX (missing_grid g) /\ forall i j, 0 <= i < nY -> 0 <= j < nX -> get2 (missing_grid g) i j = Ok CMV.
Proof.
  intros [RY RX]. unfold missing_grid. split.
  - split; [rewrite zlen_map; exact RY|]. intros row Hr. apply in_map_iff in Hr as (r & <- & Hr). rewrite zlen_map. auto.
  - intros i j Hi Hj. unfold get2. destruct (znth_some g i) as [row Hrow]; [lia|]. rewrite znth_map, Hrow. cbn [bind]. destruct (znth_some row j) as [a Ha]; [rewrite (RX row (znth_In _ _ _ Hrow)); lia|]. rewrite znth_map, Ha. reflexivity.
Qed.
Lemma extent_cases X k : 1 <= extent X k -> k = -999 \/ 1 <= dim_size X k.
Proof. unfold extent. destruct (Z.eqb_spec k (-999)); auto. Qed.
Lemma latlon_grid X R v : grid_var X R v -> r_y R <> r_x R -> 1 <= extent X (r_y R) -> 1 <= extent X (r_x R) ->
  exists g, latlon X R v = Ok g /\ full_grid X R g /\ forall i j, on_grid X R i j -> get2 g i j = Ok (value_there R v i j).
Proof.
  intros (HS & HD & [(k & D & Hk)|(L & Hy & Hx)]) N Ey Ex.
  - destruct (latlon_one X R v k HS D Hk N (extent_cases _ _ Ey) (extent_cases _ _ Ex)) as (g & E & Rg & G). exists g. split; [exact E|]. split; [exact Rg|]. intros i j [Hi Hj]. rewrite (G i j Hi Hj). unfold value_there. rewrite D. reflexivity.
  - pose proof (proj2 HS _ Hy) as By. pose proof (proj2 HS _ Hx) as Bx. destruct (latlon_many X R v HS L N Hy Hx (HD _ Hy) (HD _ Hx) (fun k Hk _ _ => HD k Hk)) as (g & E & Rg & G). exists g. split; [exact E|].
    assert (Ay : extent X (r_y R) = dim_size X (r_y R)) by (unfold extent; destruct (Z.eqb_spec (r_y R) (-999)); [lia|reflexivity]). assert (Ax : extent X (r_x R) = dim_size X (r_x R)) by (unfold extent; destruct (Z.eqb_spec (r_x R) (-999)); [lia|reflexivity]).
    unfold full_grid, on_grid. rewrite Ay, Ax. split; [exact Rg|]. intros i j [Hi Hj]. rewrite (G i j Hi Hj). unfold value_there. replace (zlen (n_dims v) =? 1) with false by (symmetry; apply Z.eqb_neq; auto). reflexivity.
Qed.
Lemma first_name_none {A} (l : list (str * A)) names : (forall n, In n names -> find_name l n = None) -> first_name l names = None.
Proof. induction names as [|n t IH]; intros H; [reflexivity|]. cbn. rewrite (H n (or_introl eq_refl)). apply IH. intros m Hm. apply H. right. exact Hm. Qed.
Lemma no_var_ok F given usual v : used_var F given usual v -> no_var F given usual = Ok v.
Proof. unfold used_var, no_var. destruct given; [intros ->; reflexivity|]. intros H. rewrite (first_name_ok _ _ _ H). reflexivity. Qed.
Lemma no_dim_ok F given usual d : used_dim F given usual d -> no_dim F given usual = Ok d.
Proof. unfold used_dim, no_dim. destruct given; [intros ->; reflexivity|]. intros [H|[-> H]]; [rewrite (first_name_ok _ _ _ H); reflexivity|rewrite first_name_none by exact H; reflexivity]. Qed.
Lemma no_elevation_ok X given e : elevation_of X given e -> no_elevation X given = match e with Some (v, c) => Some (v, Fin c) | None => None end.
Proof.
  unfold elevation_of, no_elevation. destruct given as [n|].
  - intros [(v & -> & ->)|[-> ->]]; [|reflexivity]. do 2 f_equal.
  - intros [(v & -> & ->)|[(-> & v & c & -> & -> & H)|(-> & -> & ->)]]; [do 2 f_equal| |reflexivity]. do 3 f_equal. assert (K : (Q2Qc (100 # 981) * Q2Qc (981 # 100) = 1)%Qc) by (apply Qc_is_canon; reflexivity).
    transitivity (Q2Qc (100 # 981) * (c * Q2Qc (981 # 100)))%Qc; [rewrite H; ring|]. transitivity (c * (Q2Qc (100 # 981) * Q2Qc (981 # 100)))%Qc; [ring|rewrite K; ring].
Qed.
Lemma no_times_ok X s : times_ready X s -> exists ref, no_times X (s_roles s) (s_time s) (reference_value s) = Ok (times_there X s, ref) /\
  (forall q, present (reference_value s) q -> ref = reference_value s) /\
  (absent (reference_value s) -> (r_t (s_roles s) = -999 -> ref = reference_value s) /\ (r_t (s_roles s) <> -999 -> forall t ts, times_there X s = t :: ts -> ref = t) /\ (times_there X s = [] -> ref = reference_value s)).
Proof.
  intros [HR HT]. set (rv := reference_value s) in *. assert (CV : cvalid rv = true <-> exists q, present rv q).
  { exact (cvalid_true rv). }
  destruct (s_time s) as [v|] eqn:ET.
  - assert (A : exists times, times = times_there X s /\ no_times X (s_roles s) (Some v) rv = if (0 <? dim_size X (r_t (s_roles s))) && negb (cvalid rv) then t <- znth times 0 ;; Ok (times, t) else Ok (times, rv)).
    { exists (times_there X s). split; [reflexivity|]. unfold no_times, times_there. rewrite ET. destruct HT as [[E0 D]|[D Hs]].
      - rewrite E0. change (dim_size X (-999)) with (-999). cbn [Z.eqb]. unfold whole. rewrite D. reflexivity.
      - destruct (Z.eqb_spec (r_t (s_roles s)) (-999)) as [Q|Q]; [exfalso; rewrite Q in Hs; change (dim_size X (-999)) with (-999) in Hs; lia|]. set (n := dim_size X (r_t (s_roles s))) in *.
        assert (W : whole X v = map (fun t => n_data v [t]) (zrange 0 n)). { unfold whole. rewrite D. cbn [map]. fold n. cbn [indices]. induction (zrange 0 n) as [|a l IH]; cbn [flat_map map app]; [reflexivity|]. f_equal. exact IH. }
        rewrite W, zlen_map, zlen_zrange. destruct (Z.eqb_spec n 0) as [N0|N0]; [rewrite N0; reflexivity|]. assert (ivalid n = true) as -> by (apply ivalid_ne; lia). replace (Z.max 0 (n - 0) =? n) with true by (symmetry; apply Z.eqb_eq; lia). reflexivity. }
    destruct A as (times & Et & E). rewrite E. destruct (cvalid rv) eqn:EV.
    + rewrite andb_false_r. exists rv. split; [rewrite Et; reflexivity|]. split; [auto|]. intros HA. apply proj1 in CV. destruct (CV eq_refl) as [q Hq]. exfalso. apply (HA q Hq).
    + rewrite andb_true_r. destruct (Z.ltb_spec 0 (dim_size X (r_t (s_roles s)))) as [P0|P0].
      * assert (Q : r_t (s_roles s) <> -999) by (intros Q; rewrite Q in P0; change (dim_size X (-999)) with (-999) in P0; lia). assert (NE : times <> []). { rewrite Et. unfold times_there. rewrite ET. destruct (Z.eqb_spec (r_t (s_roles s)) (-999)); [contradiction|]. rewrite zrange_cons by lia. discriminate. }
        destruct times as [|t ts]; [contradiction|]. cbn [znth]. exists t. split; [rewrite <- Et; reflexivity|]. split; [intros q Hq; exfalso; apply proj2 in CV; discriminate CV; eauto|]. intros _. split; [intros; contradiction|]. split; [intros _ t' ts' E'; congruence|intros E'; congruence].
      * exists rv. split; [rewrite Et; reflexivity|]. split; [auto|]. intros _. split; [auto|]. split; [|auto]. intros Q t ts E'. exfalso. destruct HT as [[Q' _]|[_ Hs]]; [contradiction|]. unfold times_there in E'. rewrite ET in E'. destruct (Z.eqb_spec (r_t (s_roles s)) (-999)); [contradiction|]. replace (dim_size X (r_t (s_roles s))) with 0 in E' by lia. discriminate.
  - destruct HT as [q Hq]. assert (EV : cvalid rv = true) by (apply CV; eauto). unfold no_times, times_there. rewrite ET, EV. exists rv. split; [reflexivity|]. split; [auto|]. intros HA. exfalso. apply (HA q Hq).
Qed.
Lemma no_elevs_ok X R lats e : r_y R <> r_x R -> 1 <= extent X (r_y R) -> 1 <= extent X (r_x R) -> full_grid X R lats -> (forall v c, e = Some (v, c) -> grid_var X R v) ->
  exists g, no_elevs X R lats (match e with Some (v, c) => Some (v, Fin c) | None => None end) = Ok g /\ full_grid X R g /\
    forall i j, on_grid X R i j -> exists w, get2 g i j = Ok w /\ match e with Some (v, c) => scaled c (value_there R v i j) w | None => w = CMV end.
Proof.
  intros N Ey Ex HL HV. destruct e as [[v c]|].
  - destruct (latlon_grid X R v (HV v c eq_refl) N Ey Ex) as (g & E & Rg & G). unfold no_elevs. rewrite E. cbn [bind].
    destruct (grid_map (fun a => Ok (if cvalid a then vmul a (Fin c) else a)) (fun a b => scaled c a b) _ _ g Rg) as (g' & E' & Rg' & G').
    { intros i j a _ _ _. eexists. split; [reflexivity|]. split.
      - intros q Hq. assert (cvalid a = true) as -> by (apply cvalid_true; exists q; exact Hq). destruct Hq as [-> _]. reflexivity.
      - intros HA. destruct (cvalid a) eqn:V; [|reflexivity]. apply cvalid_true in V as [q Hq]. exfalso. apply (HA q Hq). }
    rewrite E'. cbn [bind]. destruct Rg' as [A1 A2], HL as [B1 B2]. replace (zlen g' =? zlen lats) with true by (symmetry; apply Z.eqb_eq; lia). cbn [negb].
    destruct (znth_some g' 0) as [r Hr]; [lia|]. destruct (znth_some lats 0) as [r0 Hr0]; [lia|]. rewrite Hr, Hr0. cbn [bind]. rewrite (A2 _ (znth_In _ _ _ Hr)), (B2 _ (znth_In _ _ _ Hr0)), Z.eqb_refl.
    exists g'. split; [reflexivity|]. split; [split; auto|]. intros i j [Hi Hj]. exact (G' i j _ Hi Hj (G i j (conj Hi Hj))).
  - destruct (missing_grid_ok _ _ _ HL) as [A B]. exists (missing_grid lats). split; [reflexivity|]. split; [exact A|]. intros i j [Hi Hj]. exists CMV. split; [apply B; auto|reflexivity].
Qed.
Lemma c167_lat_ok q : (qz (-90) <= q <= qz 90)%Qc -> lat_bad (Fin q) = false.
Proof. intros [A B]. unfold lat_bad, fz. cbn [vltb]. destruct (qltb_spec q (qz (-90))); [exfalso; qlra|]. destruct (qltb_spec (qz 90) q); [exfalso; qlra|reflexivity]. Qed.
Lemma c167_lon_ok q : (qz (-360) <= q <= qz 360)%Qc -> lon_bad (Fin q) = false.
Proof. intros [A B]. unfold lon_bad, fz. cbn [vltb]. destruct (qltb_spec q (qz (-360))); [exfalso; qlra|]. destruct (qltb_spec (qz 360) q); [exfalso; qlra|reflexivity]. Qed.
Lemma open_ok o F s : describes o F s -> grid_ready (pn_x F) s -> times_ready (pn_x F) s -> exists P, nc_open o F = Ok P /\ op_roles P = s_roles s /\ op_ens P = extent (pn_x F) (r_e (s_roles s)) /\
  (full_grid (pn_x F) (s_roles s) (op_lats P) /\ full_grid (pn_x F) (s_roles s) (op_lons P) /\ forall i j, on_grid (pn_x F) (s_roles s) i j -> get2 (op_lats P) i j = Ok (value_there (s_roles s) (s_lat s) i j) /\
    exists q r k, value_there (s_roles s) (s_lon s) i j = Fin q /\ get2 (op_lons P) i j = Ok (Fin r) /\ (qz (-180) <= r <= qz 180)%Qc /\ (q = r + qz (360 * k))%Qc) /\
  (full_grid (pn_x F) (s_roles s) (op_elevs P) /\ full_grid (pn_x F) (s_roles s) (op_laf P) /\ forall i j, on_grid (pn_x F) (s_roles s) i j ->
    (exists w, get2 (op_elevs P) i j = Ok w /\ match s_elev s with Some (v, c) => scaled c (value_there (s_roles s) v i j) w | None => w = CMV end) /\
    get2 (op_laf P) i j = Ok (match s_laf s with Some v => value_there (s_roles s) v i j | None => CMV end)) /\
  (op_times P = times_there (pn_x F) s /\ (forall q, present (reference_value s) q -> op_reference P = reference_value s) /\
   (absent (reference_value s) -> (r_t (s_roles s) = -999 -> op_reference P = reference_value s) /\ (r_t (s_roles s) <> -999 -> forall t ts, times_there (pn_x F) s = t :: ts -> op_reference P = t) /\ (times_there (pn_x F) s = [] -> op_reference P = reference_value s))).
Proof.
  intros (D1 & D2 & [D3 D3'] & D4 & D5 & D6 & D7 & D8 & D9 & D10) (N & Ey & Ex & V1 & V2 & V3 & V4 & LA & LO) HT. set (X := pn_x F) in *. set (R := s_roles s) in *.
  unfold nc_open. rewrite (no_var_ok _ _ _ _ D1), (no_var_ok _ _ _ _ D2). cbn [bind]. fold X.
  assert (ET : match no_time o with Some n => v <- or_abort (find_name (x_vars X) n) ;; Ok (Some v) | None => Ok (find_name (x_vars X) (txt "time")) end = Ok (s_time s)).
  { destruct (no_time o) as [n|]; cbn [or_name] in D3; rewrite D3; [|reflexivity]. destruct (s_time s); [reflexivity|]. exfalso. apply D3'; [discriminate|reflexivity]. }
  rewrite ET. cbn [bind]. rewrite (no_dim_ok _ _ _ _ D4), (no_dim_ok _ _ _ _ D5), (no_dim_ok _ _ _ _ D6). cbn [bind].
  assert (EE : no_ensemble F (no_ens o) = r_e R). { unfold no_ensemble. change (match no_ens o with Some n => n | None => txt "ensemble_member" end) with (or_name (no_ens o) (txt "ensemble_member")). destruct D7 as [->|[-> ->]]; reflexivity. }
  rewrite EE. replace {| r_t := r_t R; r_e := r_e R; r_y := r_y R; r_x := r_x R |} with R by (destruct R; reflexivity).
  destruct (latlon_grid X R _ V1 N Ey Ex) as (lats & E1 & R1 & G1). destruct (latlon_grid X R _ V2 N Ey Ex) as (lons & E2 & R2 & G2). rewrite E1. cbn [bind].
  rewrite (grid_none lat_bad _ _ lats R1); [|intros i j a Hi Hj Ha; rewrite (G1 i j (conj Hi Hj)) in Ha; injection Ha as <-; destruct (LA i j (conj Hi Hj)) as (q & -> & B); apply c167_lat_ok; exact B].
  rewrite E2. cbn [bind]. rewrite (grid_none lon_bad _ _ lons R2); [|intros i j a Hi Hj Ha; rewrite (G2 i j (conj Hi Hj)) in Ha; injection Ha as <-; destruct (LO i j (conj Hi Hj)) as (q & -> & _ & B); apply c167_lon_ok; exact B].
  destruct (grid_map norm_lon (fun a b => exists q r k, a = Fin q /\ b = Fin r /\ (qz (-180) <= r <= qz 180)%Qc /\ (q = r + qz (360 * k))%Qc) _ _ lons R2) as (lons' & E3 & R3 & G3).
  { intros i j a Hi Hj Ha. rewrite (G2 i j (conj Hi Hj)) in Ha. injection Ha as <-. destruct (LO i j (conj Hi Hj)) as (q & -> & N0 & B). destruct (c167_lon q N0 B) as (r & k & E & Br & Ek). exists (Fin r). split; [exact E|]. exists q, r, k. auto. }
  rewrite E3. cbn [bind]. rewrite (no_elevation_ok _ _ _ D8). destruct (no_elevs_ok X R lats (s_elev s) N Ey Ex R1 V3) as (el & E4 & R4 & G4). rewrite E4. cbn [bind].
  assert (HF : exists laf, no_fractions X R lats (no_laf o) = Ok laf /\ full_grid X R laf /\ forall i j, on_grid X R i j -> get2 laf i j = Ok (match s_laf s with Some v => value_there R v i j | None => CMV end)).
  { unfold no_fractions. change (match no_laf o with Some n => n | None => txt "land_area_fraction" end) with (or_name (no_laf o) (txt "land_area_fraction")). rewrite D9. destruct (s_laf s) as [v|]; [apply latlon_grid; auto|]. destruct (missing_grid_ok _ _ _ R1) as [A B]. exists (missing_grid lats). split; [reflexivity|]. split; [exact A|]. intros i j [Hi Hj]. apply B; auto. }
  destruct HF as (laf & E5 & R5 & G5). rewrite E5. cbn [bind].
  assert (ER : no_reference X = Ok (reference_value s)). { unfold no_reference, reference_value. rewrite D10. destruct (s_ref s) as [v|] eqn:Es; [|reflexivity]. rewrite (proj1 HT v Es). reflexivity. }
  rewrite ER. cbn [bind]. destruct (no_times_ok X s HT) as (ref & E6 & T1 & T2). fold R in E6. rewrite E6. cbn [bind fst snd].
  eexists. split; [reflexivity|]. cbn [op_roles op_ens op_lats op_lons op_elevs op_laf op_times op_reference]. split; [reflexivity|]. split; [unfold extent, ivalid; destruct (r_e R =? -999); reflexivity|].
  split; [split; [exact R1|]; split; [exact R3|]; intros i j H; split; [apply G1, H|]; destruct H as [Hi Hj]; destruct (G3 i j _ Hi Hj (G2 i j (conj Hi Hj))) as (b & Hb & q & r & k & Eq & -> & Br & Ek); exists q, r, k; auto|].
  split; [split; [exact R4|]; split; [exact R5|]; intros i j H; split; [apply G4, H|apply G5, H]|]. split; [reflexivity|]. split; [exact T1|exact T2].
Qed.
Lemma c275 o F P : nc_open o F = Ok P -> nc_valid o F = true.
Proof.
  unfold nc_open, nc_valid. intros E. apply bind_Ok in E as (v1 & A & E). apply bind_Ok in E as (v2 & B & _). unfold no_var in A, B. cbn [first_name] in A, B. apply andb_true_intro. split.
  - destruct (no_lat o); [apply orb_true_r|]. rewrite orb_false_r. destruct (find_name _ (txt "lat")); [reflexivity|]. destruct (find_name _ (txt "latitude")); [reflexivity|discriminate A].
  - destruct (no_lon o); [apply orb_true_r|]. rewrite orb_false_r. destruct (find_name _ (txt "lon")); [reflexivity|]. destruct (find_name _ (txt "longitude")); [reflexivity|discriminate B].
Qed.
Lemma c274_none o F P : no_time o = None -> find_name (x_vars (pn_x F)) (txt "time") = None -> (forall v, find_name (x_vars (pn_x F)) (txt "forecast_reference_time") = Some v -> n_dims v <> [] \/ absent (n_data v [])) -> nc_open o F <> Ok P.
Proof.
  unfold nc_open. intros NT HT HR E. rewrite NT, HT in E. apply bind_Ok in E as (? & _ & E). apply bind_Ok in E as (? & _ & E). cbn [bind] in E. do 3 apply bind_Ok in E as (? & _ & E). apply bind_Ok in E as (lats & _ & E). destruct (existsb _ lats); [discriminate|].
  apply bind_Ok in E as (lons & _ & E). destruct (existsb _ lons); [discriminate|]. do 3 apply bind_Ok in E as (? & _ & E). apply bind_Ok in E as (ref & Eref & E). apply bind_Ok in E as (tr & Etr & _).
  assert (V : cvalid ref = false). { unfold no_reference in Eref. destruct (find_name _ (txt "forecast_reference_time")) as [v|]; [|injection Eref as <-; reflexivity]. specialize (HR v eq_refl). destruct (n_dims v) eqn:D; [|discriminate]. injection Eref as <-. destruct HR as [HR|HR]; [contradiction|]. destruct (cvalid (n_data v [])) eqn:V; [|reflexivity]. apply cvalid_true in V as [q Hq]. exfalso. apply (HR q Hq). }
  unfold no_times in Etr. rewrite V in Etr. discriminate.
Qed.
