(** Proofs about what the client writes to a NetCDF file besides the fields. *)
From Coq Require Import Ascii String.
From Verif Require Import Base QcTac ListLib M_COpt S_COpt M_CUtil S_CUtil M_CCal P_CCal M_CTree S_CTree P_CTree M_CDown P_CDown M_CKrig P_COpt M_CFile P_CFile M_CNc S_CNc P_CNc P_CNc2 P_CNc3 P_CNc4 P_CNc5 P_CNc6 P_CNc7 P_CNc8 M_CPar S_CPar P_CPar M_CParNc S_CParNc P_CParNc P_CParNc4 M_CNcOpen S_CNcOpen P_CNcOpen M_CNcRest S_CNcRest.
Local Open Scope Z_scope.

(** a variable with new contents *)
Definition form_of (v v' : nc_var) : Prop := n_dims v' = n_dims v /\ n_fill v' = n_fill v /\ stores_all v'.
Lemma put_ok X name v values : stores_all v -> (forall d, In d (n_dims v) -> 0 < dim_size X d) -> zlen values = product (map (dim_size X) (n_dims v)) ->
  exists X' v', put_vara X name v (init1 (zlen (n_dims v)) 0) (map (dim_size X) (n_dims v)) (map Some values) = Ok X' /\ x_dims X' = x_dims X /\ find_name (x_vars X') name = Some v' /\ form_of v v' /\
    (forall idx, fits_in (map (dim_size X) (n_dims v)) idx -> znth values (row_major (map (dim_size X) (n_dims v)) idx) = Ok (n_data v' idx)) /\
    forall other, other <> name -> find_name (x_vars X') other = find_name (x_vars X) other.
Proof.
  intros P2 HD HL. rewrite init1_map. unfold put_vara. rewrite allowed_all by auto. cbn [negb].
  set (sizes := map (dim_size X) (n_dims v)) in *. assert (EM : mapM (fun k => b <- znth (map Some values) k ;; match b with None => UB | Some x => match n_store v x with Some y => Ok y | None => Abort end end) (zrange 0 (product sizes)) = Ok values).
  { rewrite <- HL. pose proof (zlen_nonneg values). rewrite (mapM_ok _ (fun k => match znth values k with Ok x => x | _ => NaN end)).
    - f_equal. apply znth_ext; [rewrite zlen_map, zlen_zrange; lia|]. intros k Hk. rewrite zlen_map, zlen_zrange in Hk. rewrite znth_map, znth_zrange by lia. destruct (znth_some values k) as [x Ex]; [lia|]. rewrite Z.add_0_l, Ex. reflexivity.
    - intros k Hk. apply in_zrange in Hk. rewrite znth_map. destruct (znth_some values k) as [x ->]; [lia|]. cbn [bind]. rewrite P2. reflexivity. }
  cbn beta in EM. rewrite EM. cbn [bind]. eexists. eexists. split; [reflexivity|]. cbn [x_dims x_vars]. split; [unfold sizes; apply grow_all_id; auto|]. split; [rewrite find_store, str_eqb_refl; reflexivity|]. split; [split; [reflexivity|split; [reflexivity|exact P2]]|]. split.
  - intros idx HF. cbn [n_data with_data]. assert (LI : zlen (n_dims v) = zlen idx). { rewrite <- (zlen_map (dim_size X)). fold sizes. clear - HF. induction HF; [reflexivity|]. rewrite !zlen_cons. lia. }
    assert (SL : in_slab (map (fun _ => 0) (n_dims v)) sizes idx = true) by (apply in_slab_fits; rewrite zlen_map, minus_zero by auto; auto). rewrite SL. rewrite minus_zero by auto.
    pose proof (row_major_range _ _ HF) as RR. destruct (znth_some values (row_major sizes idx)) as [x ->]; [rewrite HL; auto|reflexivity].
  - intros other N. rewrite find_store. destruct (str_eqb_spec name other) as [->|]; [congruence|reflexivity].
Qed.
Lemma new_var_ok X name ds : x_dims (new_var X name ds) = x_dims X /\ find_name (x_vars (new_var X name ds)) name = Some (fresh_var ds) /\ forall other, other <> name -> find_name (x_vars (new_var X name ds)) other = find_name (x_vars X) other.
Proof. split; [reflexivity|]. cbn [new_var x_vars]. rewrite find_store, str_eqb_refl. split; [reflexivity|]. intros other N. rewrite find_store. destruct (str_eqb_spec name other); [congruence|reflexivity]. Qed.
Lemma dims_size X X' d : x_dims X' = x_dims X -> dim_size X' d = dim_size X d.
Proof. intros E. unfold dim_size. rewrite E. reflexivity. Qed.
Lemma fresh_stores ds : stores_all (fresh_var ds). Proof. intros w. reflexivity. Qed.
(** the times *)
Lemma write_times_ok X v d times : find_name (x_vars X) (txt "time") = Some v -> n_dims v = [d] -> stores_all v -> 0 < dim_size X d -> zlen times = dim_size X d -> (forall t, In t times -> exists q, present t q) ->
  exists X' v', write_times X times = Ok X' /\ x_dims X' = x_dims X /\ find_name (x_vars X') (txt "time") = Some v' /\ form_of v v' /\ map (fun t => n_data v' [t]) (zrange 0 (dim_size X d)) = times /\
    forall other, other <> txt "time" -> find_name (x_vars X') other = find_name (x_vars X) other.
Proof.
  intros E D HS HD HL HT. unfold write_times. rewrite E. cbn [or_abort bind]. rewrite D. assert (EM : map (fun t => if cvalid t then t else fill_float) times = times).
  { clear - HT. induction times as [|t l IH]; [reflexivity|]. cbn [map]. rewrite IH by (intros; apply HT; right; auto). assert (cvalid t = true) as -> by (apply cvalid_true; destruct (HT t (or_introl eq_refl)) as [q Hq]; exists q; exact Hq). reflexivity. }
  rewrite EM. destruct (put_ok X (txt "time") v times HS) as (X' & v' & EP & A & B & C & G & O); [intros k Hk; rewrite D in Hk; destruct Hk as [<-|[]]; auto|rewrite D; cbn; lia|].
  rewrite D in EP. change (init1 (zlen [d]) 0) with [0] in EP. cbn [map] in EP. rewrite HL, EP. exists X', v'. split; [reflexivity|]. split; [exact A|]. split; [exact B|]. split; [exact C|]. split; [|exact O].
  apply znth_ext; [rewrite zlen_map, zlen_zrange; lia|]. intros k Hk. rewrite zlen_map, zlen_zrange in Hk. rewrite znth_map, znth_zrange by lia. rewrite D in G. cbn [map] in G. specialize (G [k]). cbn [row_major product] in G. rewrite Z.mul_1_r, Z.add_0_r in G. rewrite Z.add_0_l. symmetry. apply G. constructor; [lia|constructor].
Qed.
Lemma write_reference_ok X v ref q : find_name (x_vars X) (txt "forecast_reference_time") = Some v -> n_dims v = [] -> stores_all v -> present ref q ->
  exists X' v', write_reference X ref = Ok X' /\ x_dims X' = x_dims X /\ find_name (x_vars X') (txt "forecast_reference_time") = Some v' /\ form_of v v' /\ n_data v' [] = ref /\
    forall other, other <> txt "forecast_reference_time" -> find_name (x_vars X') other = find_name (x_vars X) other.
Proof.
  intros E D HS Hq. unfold write_reference. rewrite E. cbn [or_abort bind]. rewrite D. assert (cvalid ref = true) as -> by (apply cvalid_true; exists q; exact Hq).
  destruct (put_ok X (txt "forecast_reference_time") v [ref] HS) as (X' & v' & EP & A & B & C & G & O); [intros k Hk; rewrite D in Hk; destruct Hk|rewrite D; reflexivity|].
  rewrite D in EP. change (init1 (zlen (@nil Z)) 0) with (@nil Z) in EP. cbn [map] in EP. rewrite EP. exists X', v'. split; [reflexivity|]. split; [exact A|]. split; [exact B|]. split; [exact C|]. split; [|exact O].
  rewrite D in G. specialize (G [] (Forall2_nil _)). cbn in G. injection G as <-. reflexivity.
Qed.
(** a grid as one list *)
Lemma concat_grid {A} m (g : list (list A)) : 0 <= m -> forall n, rect n m g -> zlen (concat g) = n * m /\ forall i j, 0 <= i < n -> 0 <= j < m -> znth (concat g) (i * m + j) = get2 g i j.
Proof.
  intros Hm. induction g as [|row g IH]; intros n [RY RX].
  - change (zlen (@nil (list A))) with 0 in RY. split; [change (0 = n * m); rewrite <- RY; ring|]. intros i j Hi Hj. lia.
  - rewrite zlen_cons in RY. destruct (IH (n - 1)) as [IL IG]; [split; [lia|intros r Hr; apply RX; right; exact Hr]|]. pose proof (RX row (or_introl eq_refl)) as RL. cbn [concat]. split; [rewrite zlen_app, IL, RL; ring|].
    intros i j Hi Hj. unfold get2. destruct (Z.eq_dec i 0) as [->|Ni].
    + rewrite znth_app_l by lia. reflexivity.
    + rewrite znth_app_r by nia. rewrite RL. replace (i * m + j - m) with ((i - 1) * m + j) by ring. rewrite IG by lia. unfold get2. rewrite (znth_consS row g i) by lia. reflexivity.
Qed.
Lemma last_of_two a b : a <> b -> last_of a [a; b] = 0 /\ last_of b [a; b] = 1.
Proof.
  intros N. unfold last_of. change (combine (zrange 0 (zlen [a; b])) [a; b]) with [(0, a); (1, b)]. cbn [fold_left]. rewrite !Z.eqb_refl. split; [|reflexivity]. destruct (Z.eqb_spec b a); [congruence|reflexivity].
Qed.
(** the altitudes *)
Definition put_elev (v : nc_var) (e : val) : val := if cvalid (fill_of v) && negb (cvalid e) then fill_of v else e.
Lemma write_altitude_ok X R v elevs : find_name (x_vars X) (txt "altitude") = Some v -> (n_dims v = [r_y R; r_x R] \/ n_dims v = [r_x R; r_y R]) -> stores_all v -> r_y R <> r_x R -> r_y R <> -999 -> r_x R <> -999 ->
  1 <= dim_size X (r_y R) -> 1 <= dim_size X (r_x R) -> rect (dim_size X (r_y R)) (dim_size X (r_x R)) elevs ->
  exists X' v', write_altitude X R elevs = Ok X' /\ x_dims X' = x_dims X /\ find_name (x_vars X') (txt "altitude") = Some v' /\ form_of v v' /\
    (forall i j e, 0 <= i < dim_size X (r_y R) -> 0 <= j < dim_size X (r_x R) -> get2 elevs i j = Ok e -> n_data v' (map (grid_point R i j) (n_dims v)) = put_elev v e) /\
    forall other, other <> txt "altitude" -> find_name (x_vars X') other = find_name (x_vars X) other.
Proof.
  intros E D HS N Ny Nx HY HX HR. unfold write_altitude. rewrite E. cbn [or_abort bind]. assert (ivalid (r_y R) = true) as -> by (apply ivalid_ne; auto). assert (ivalid (r_x R) = true) as -> by (apply ivalid_ne; auto).
  assert (zlen (n_dims v) = 2) as DL by (destruct D as [-> | ->]; reflexivity). rewrite DL. cbn [Z.add Z.eqb Pos.eqb negb]. pose proof HR as [RY RX]. destruct (znth_some elevs 0) as [row Hrow]; [lia|]. rewrite Hrow. cbn [bind]. rewrite RY, (RX row (znth_In _ _ _ Hrow)).
  set (nY := dim_size X (r_y R)) in *. set (nX := dim_size X (r_x R)) in *. assert (E1 : (r_x R =? r_y R) = false) by (apply Z.eqb_neq; auto).
  assert (EC : map (fun d => if d =? r_y R then nY else if d =? r_x R then nX else 1) (n_dims v) = map (dim_size X) (n_dims v)). { destruct D as [-> | ->]; cbn [map]; rewrite !Z.eqb_refl, E1; reflexivity. }
  rewrite EC. assert (EP : product (map (dim_size X) (n_dims v)) = nY * nX) by (destruct D as [-> | ->]; cbn [map product]; fold nY nX; ring). rewrite EP, Z.ltb_irrefl.
  assert (G0 : forall i j, 0 <= i < nY -> 0 <= j < nX -> exists e, get2 elevs i j = Ok e). { intros i j Hi Hj. unfold get2. destruct (znth_some elevs i) as [r Hr]; [lia|]. rewrite Hr. cbn [bind]. apply znth_some. rewrite (RX r (znth_In _ _ _ Hr)). lia. }
  assert (GE : forall i j, 0 <= i < nY -> 0 <= j < nX -> (e <- get2 elevs i j ;; Ok (if cvalid (fill_of v) && negb (cvalid e) then fill_of v else e)) = Ok (put_elev v (match get2 elevs i j with Ok e => e | _ => NaN end))). { intros i j Hi Hj. destruct (G0 i j Hi Hj) as [e ->]. reflexivity. }
  assert (PO : forall values, zlen values = nY * nX -> exists X' v', put_vara X (txt "altitude") v (init1 2 0) (map (dim_size X) (n_dims v)) (map Some values) = Ok X' /\ x_dims X' = x_dims X /\ find_name (x_vars X') (txt "altitude") = Some v' /\ form_of v v' /\
    (forall idx, fits_in (map (dim_size X) (n_dims v)) idx -> znth values (row_major (map (dim_size X) (n_dims v)) idx) = Ok (n_data v' idx)) /\ forall other, other <> txt "altitude" -> find_name (x_vars X') other = find_name (x_vars X) other).
  { intros values HL. rewrite <- DL. apply put_ok; [exact HS| |rewrite EP; exact HL]. intros k Hk. destruct D as [D|D]; rewrite D in Hk; destruct Hk as [<-|[<-|[]]]; fold nY nX; lia. }
  assert (F2 : forall n m i j, 0 <= i < n -> 0 <= j < m -> fits_in [n; m] [i; j]) by (intros; repeat constructor; lia).
  destruct D as [D|D]; rewrite D in PO |- *.
  - destruct (last_of_two _ _ N) as [-> ->]. cbn [Z.ltb Z.compare]. destruct (tab2_table nY nX _ _ ltac:(lia) ltac:(lia) GE) as (g & Eg & Rg & Gg). rewrite Eg. cbn [bind]. destruct (concat_grid nX g ltac:(lia) nY Rg) as [CL CG].
    destruct (PO (concat g) CL) as (X' & v' & E' & A & B & C & G & O). rewrite E'. exists X', v'. split; [reflexivity|]. split; [exact A|]. split; [exact B|]. split; [exact C|]. split; [|exact O].
    intros i j e Hi Hj He. cbn [map] in G |- *. unfold grid_point. rewrite !Z.eqb_refl, E1. fold nY nX in G. specialize (G [i; j] (F2 _ _ _ _ Hi Hj)). cbn [row_major product] in G. replace (i * (nX * 1) + (j * 1 + 0)) with (i * nX + j) in G by ring. rewrite CG, Gg, He in G by auto. injection G as <-. reflexivity.
  - assert (N' : r_x R <> r_y R) by auto. destruct (last_of_two _ _ N') as [-> ->]. cbn [Z.ltb Z.compare]. destruct (tab2_table nX nY _ _ ltac:(lia) ltac:(lia) (fun j i Hj Hi => GE i j Hi Hj)) as (g & Eg & Rg & Gg). rewrite Eg. cbn [bind]. destruct (concat_grid nY g ltac:(lia) nX Rg) as [CL CG].
    destruct (PO (concat g)) as (X' & v' & E' & A & B & C & G & O); [rewrite CL; ring|]. rewrite E'. exists X', v'. split; [reflexivity|]. split; [exact A|]. split; [exact B|]. split; [exact C|]. split; [|exact O].
    intros i j e Hi Hj He. cbn [map] in G |- *. unfold grid_point. rewrite !Z.eqb_refl, E1. fold nY nX in G. specialize (G [j; i] (F2 _ _ _ _ Hj Hi)). cbn [row_major product] in G. replace (j * (nY * 1) + (i * 1 + 0)) with (j * nY + i) in G by ring. rewrite CG, Gg, He in G by auto. injection G as <-. reflexivity.
Qed.
