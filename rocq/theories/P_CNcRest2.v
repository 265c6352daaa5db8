(** Proofs about what the client writes to a NetCDF file besides the fields: all of it, and opening the file again. *)
From Coq Require Import Ascii String.
From Verif Require Import Base QcTac ListLib M_COpt S_COpt M_CUtil S_CUtil M_CCal P_CCal M_CTree S_CTree P_CTree M_CDown P_CDown M_CKrig P_COpt M_CFile P_CFile M_CNc S_CNc P_CNc P_CNc5 M_CPar S_CPar P_CPar M_CParNc S_CParNc P_CParNc P_CParNc6 M_CNcOpen S_CNcOpen P_CNcOpen P_CNcOpen2 M_CNcRest S_CNcRest P_CNcRest.
Local Open Scope Z_scope.

Definition altitude_fill (X : netcdf) : val := match find_name (x_vars X) (txt "altitude") with Some v => fill_of v | None => fill_float end.
Lemma fill_form v v' : form_of v v' -> fill_of v' = fill_of v.
Proof. intros (_ & H & _). unfold fill_of. rewrite H. reflexivity. Qed.
Ltac other_name := let H := fresh in intros H; vm_compute in H; discriminate H.
Section Rest.
  Variables (X : netcdf) (R : roles) (vlat vt : nc_var) (elevs : list vec) (times : vec) (ref : val) (q : Qc).
  Hypothesis (Ht : find_name (x_vars X) (txt "time") = Some vt) (Dt : n_dims vt = [r_t R]) (St : stores_all vt) (Pt : 0 < dim_size X (r_t R)) (Lt : zlen times = dim_size X (r_t R)) (Vt : forall t, In t times -> exists q, present t q).
  Hypothesis (Hr : forall v, find_name (x_vars X) (txt "forecast_reference_time") = Some v -> n_dims v = [] /\ stores_all v) (Pr : present ref q).
  Hypothesis (Ha : forall v, find_name (x_vars X) (txt "altitude") = Some v -> (n_dims v = [r_y R; r_x R] \/ n_dims v = [r_x R; r_y R]) /\ stores_all v).
  Hypothesis (N : r_y R <> r_x R) (Ny : r_y R <> -999) (Nx : r_x R <> -999) (Py : 1 <= dim_size X (r_y R)) (Px : 1 <= dim_size X (r_x R)) (Re : rect (dim_size X (r_y R)) (dim_size X (r_x R)) elevs).
  Let same (X' : netcdf) (names : list str) : Prop := x_dims X' = x_dims X /\ forall n, ~ In n names -> find_name (x_vars X') n = find_name (x_vars X) n.
  Lemma rest_ok : exists X' vt' vr', write_rest X R vlat elevs times ref = Ok X' /\ same X' written_names /\ (find_name (x_vars X') (txt "time") = Some vt' /\ n_dims vt' = [r_t R] /\ map (fun t => n_data vt' [t]) (zrange 0 (dim_size X (r_t R))) = times) /\
    (find_name (x_vars X') (txt "forecast_reference_time") = Some vr' /\ n_dims vr' = [] /\ n_data vr' [] = ref) /\
    (find_name (x_vars X') (txt "altitude") = find_name (x_vars X) (txt "altitude") \/
     exists va', find_name (x_vars X') (txt "altitude") = Some va' /\ (n_dims va' = [r_y R; r_x R] \/ n_dims va' = [r_x R; r_y R]) /\ fill_of va' = altitude_fill X /\
       forall i j e, 0 <= i < dim_size X (r_y R) -> 0 <= j < dim_size X (r_x R) -> get2 elevs i j = Ok e -> n_data va' (map (grid_point R i j) (n_dims va')) = if cvalid (altitude_fill X) && negb (cvalid e) then altitude_fill X else e).
  Proof.
    unfold write_rest. set (valid := existsb (existsb cvalid) elevs).
    assert (S0 : exists X0, (if valid && negb (has_var X (txt "altitude")) then define_altitude X R vlat else Ok X) = Ok X0 /\ same X0 [txt "altitude"] /\
      if valid then exists va, find_name (x_vars X0) (txt "altitude") = Some va /\ (n_dims va = [r_y R; r_x R] \/ n_dims va = [r_x R; r_y R]) /\ stores_all va /\ fill_of va = altitude_fill X else find_name (x_vars X0) (txt "altitude") = find_name (x_vars X) (txt "altitude")).
    { destruct valid; cbn [andb]; [|exists X; split; [reflexivity|]; split; [split; [reflexivity|intros; reflexivity]|reflexivity]]. unfold has_var, altitude_fill. destruct (find_name (x_vars X) (txt "altitude")) as [v|] eqn:EA; cbn [negb].
      - exists X. split; [reflexivity|]. split; [split; [reflexivity|intros; reflexivity]|]. exists v. destruct (Ha v eq_refl). auto.
      - unfold define_altitude. match goal with |- context [let '(y, x) := ?p in _] => destruct p as [y x] end. assert (ivalid (r_y R) = true) as -> by (apply ivalid_ne; auto). assert (ivalid (r_x R) = true) as -> by (apply ivalid_ne; auto). cbn [andb].
        set (ds := if y <? x then _ else _). destruct (new_var_ok X (txt "altitude") ds) as (A & B & C). exists (new_var X (txt "altitude") ds). split; [reflexivity|]. split; [split; [exact A|]; intros n Hn; apply C; intros ->; apply Hn; left; reflexivity|].
        exists (fresh_var ds). split; [exact B|]. split; [unfold ds; destruct (y <? x); auto|]. split; [apply fresh_stores|reflexivity]. }
    destruct S0 as (X0 & -> & [D0 F0] & A0). cbn [bind].
    assert (T0 : find_name (x_vars X0) (txt "time") = Some vt) by (rewrite F0; [exact Ht|intros [H|[]]; revert H; other_name]).
    assert (E1 : define_times X0 R = X0) by (unfold define_times, has_var; rewrite T0; reflexivity). rewrite E1.
    assert (S1 : exists X1 vr, define_reference X0 = X1 /\ x_dims X1 = x_dims X0 /\ find_name (x_vars X1) (txt "forecast_reference_time") = Some vr /\ n_dims vr = [] /\ stores_all vr /\ forall n, n <> txt "forecast_reference_time" -> find_name (x_vars X1) n = find_name (x_vars X0) n).
    { unfold define_reference, has_var. destruct (find_name (x_vars X0) (txt "forecast_reference_time")) as [v|] eqn:ER.
      - exists X0, v. split; [reflexivity|]. split; [reflexivity|]. split; [exact ER|]. rewrite F0 in ER by (intros [H|[]]; revert H; other_name). destruct (Hr v ER). auto.
      - destruct (new_var_ok X0 (txt "forecast_reference_time") []) as (A & B & C). exists (new_var X0 (txt "forecast_reference_time") []), (fresh_var []). split; [reflexivity|]. split; [exact A|]. split; [exact B|]. split; [reflexivity|]. split; [apply fresh_stores|exact C]. }
    destruct S1 as (X1 & vr & -> & D1 & R1 & Dr & Sr & F1).
    destruct (write_times_ok X1 vt (r_t R) times) as (X2 & vt' & E2 & D2 & T2 & Ft & M2 & F2); [rewrite F1 by other_name; exact T0|exact Dt|exact St|rewrite (dims_size X0 X1), (dims_size X X0); auto|rewrite (dims_size X0 X1), (dims_size X X0); auto|exact Vt|]. rewrite E2. cbn [bind].
    destruct (write_reference_ok X2 vr ref q) as (X3 & vr' & E3 & D3 & R3 & Fr & M3 & F3); [rewrite F2 by other_name; exact R1|exact Dr|exact Sr|exact Pr|]. rewrite E3. cbn [bind].
    assert (DX : x_dims X3 = x_dims X) by congruence. rewrite (dims_size X0 X1), (dims_size X X0) in M2 by auto.
    assert (T3 : find_name (x_vars X3) (txt "time") = Some vt') by (rewrite F3 by other_name; exact T2). assert (Q3 : find_name (x_vars X3) (txt "altitude") = find_name (x_vars X0) (txt "altitude")) by (rewrite F3, F2, F1 by other_name; reflexivity).
    assert (O3 : forall n, ~ In n written_names -> find_name (x_vars X3) n = find_name (x_vars X) n).
    { intros n Hn. rewrite F3, F2, F1, F0; [reflexivity| | | |]; [intros [<-|[]]|intros ->|intros ->|intros ->]; apply Hn; cbn; auto. }
    destruct Ft as (Ft & _ & _). destruct Fr as (Fr & _ & _).
    destruct valid.
    - destruct A0 as (va & A0 & Da & Sa & Fa). destruct (write_altitude_ok X3 R va elevs) as (X4 & va' & E4 & D4 & A4 & FA & M4 & F4); auto; try (rewrite !(dims_size X X3) by exact DX; assumption); [rewrite Q3; exact A0|]. rewrite E4.
      exists X4, vt', vr'. split; [reflexivity|]. split; [split; [congruence|]; intros n Hn; rewrite F4; [apply O3, Hn|intros ->; apply Hn; left; reflexivity]|].
      split; [split; [rewrite F4 by other_name; exact T3|split; [congruence|exact M2]]|]. split; [split; [rewrite F4 by other_name; exact R3|split; [congruence|exact M3]]|]. right. exists va'. split; [exact A4|]. pose proof (fill_form _ _ FA) as FF. destruct FA as (FA & _ & _). rewrite FA. split; [exact Da|]. split; [congruence|].
      intros i j e Hi Hj He. rewrite (M4 i j e); [unfold put_elev; rewrite Fa; reflexivity| | |exact He]; rewrite (dims_size X X3) by exact DX; assumption.
    - exists X3, vt', vr'. split; [reflexivity|]. split; [split; [exact DX|exact O3]|]. split; [split; [exact T3|split; [congruence|exact M2]]|]. split; [split; [exact R3|split; [congruence|exact M3]]|]. left. rewrite Q3. exact A0.
  Qed.
End Rest.
Lemma grid_var_dims X X' R v : x_dims X' = x_dims X -> grid_var X R v -> grid_var X' R v.
Proof. intros E (HS & HD & HC). split; [destruct HS as [A B]; split; [exact A|rewrite E; exact B]|]. split; [intros k Hk; rewrite (dims_size X X') by exact E; auto|exact HC]. Qed.
Lemma get_vara_dims X X' v start count : x_dims X' = x_dims X -> get_vara X' v start count = get_vara X v start count.
Proof.
  intros E. unfold get_vara. assert (A : forall b ds ss cs, allowed X' b ds ss cs = allowed X b ds ss cs).
  { intros b ds. induction ds as [|d ds IH]; intros ss cs; [reflexivity|]. destruct ss as [|a ss], cs as [|c cs]; try reflexivity. cbn [allowed]. rewrite E. destruct (znth (x_dims X) d) as [[n u]| | |]; try reflexivity. rewrite IH. reflexivity. }
  rewrite A. reflexivity.
Qed.
Lemma latlon_dims X X' R v : x_dims X' = x_dims X -> latlon X' R v = latlon X R v.
Proof.
  intros E. unfold latlon. rewrite !(dims_size X X' _ E). destruct (n_dims v) as [|k [|k2 l]].
  - rewrite !(get_vara_dims X X') by exact E. reflexivity.
  - rewrite !(dims_size X X' _ E). rewrite !(get_vara_dims X X') by exact E. reflexivity.
  - rewrite !(get_vara_dims X X') by exact E. reflexivity.
Qed.
Lemma first_of_same {A} (l l' : list (str * A)) names a : (forall n, In n names -> find_name l' n = find_name l n) -> first_of l names a -> first_of l' names a.
Proof.
  intros H (b & n & c & E & Hb & Hn). exists b, n, c. split; [exact E|]. split; [|rewrite H; [exact Hn|rewrite E; apply in_or_app; right; left; reflexivity]]. intros m Hm. rewrite H; [auto|rewrite E; apply in_or_app; left; exact Hm].
Qed.
(** the parts of an opened file *)
Lemma open_parts o F P : nc_open o F = Ok P -> exists vlat vlon lons, no_var F (no_lat o) [txt "latitude"; txt "lat"] = Ok vlat /\ no_var F (no_lon o) [txt "longitude"; txt "lon"] = Ok vlon /\
  latlon (pn_x F) (op_roles P) vlat = Ok (op_lats P) /\ latlon (pn_x F) (op_roles P) vlon = Ok lons /\ mapM (mapM norm_lon) lons = Ok (op_lons P) /\ no_fractions (pn_x F) (op_roles P) (op_lats P) (no_laf o) = Ok (op_laf P).
Proof.
  unfold nc_open. intros E. apply bind_Ok in E as (vlat & E1 & E). apply bind_Ok in E as (vlon & E2 & E). apply bind_Ok in E as (vtime & _ & E). do 3 apply bind_Ok in E as (? & _ & E). apply bind_Ok in E as (lats & E3 & E). destruct (existsb _ lats); [discriminate|].
  apply bind_Ok in E as (lons & E4 & E). destruct (existsb _ lons); [discriminate|]. apply bind_Ok in E as (lons' & E5 & E). apply bind_Ok in E as (el & _ & E). apply bind_Ok in E as (laf & E6 & E). apply bind_Ok in E as (rf & _ & E). apply bind_Ok in E as (tr & _ & E). injection E as <-.
  exists vlat, vlon, lons. cbn. auto 8.
Qed.
Lemma veqb_fin a w : Fin a <> w -> veqb (Fin a) w = false.
Proof. intros H. destruct w as [| | |b]; try reflexivity. cbn [veqb]. destruct (qeqb_spec a b); [congruence|reflexivity]. Qed.
Lemma not_valid_absent w : cvalid w = false <-> absent w.
Proof. split; [intros V q Hq|intros H; destruct (cvalid w) eqn:V; [|reflexivity]; apply cvalid_true in V as [q Hq]; exfalso; apply (H q Hq)]. assert (cvalid w = true) by (apply cvalid_true; exists q; exact Hq). congruence. Qed.
Lemma scaled_unique c w a b : scaled c w a -> scaled c w b -> a = b.
Proof. intros [A1 A2] [B1 B2]. destruct (cvalid w) eqn:V; [apply cvalid_true in V as [q Hq]; rewrite (A1 q Hq), (B1 q Hq); reflexivity|]. apply not_valid_absent in V. rewrite A2, B2 by exact V. reflexivity. Qed.
Lemma not_written n names : forallb (fun w => negb (str_eqb n w)) written_names = true -> names = written_names -> ~ In n names.
Proof. intros H -> Hn. rewrite forallb_forall in H. specialize (H n Hn). rewrite str_eqb_refl in H. discriminate. Qed.
Lemma c276 o F s P : describes o F s -> grid_ready (pn_x F) s -> times_ready (pn_x F) s -> nc_open o F = Ok P -> rewritable o F s P ->
  exists X' P', write_rest (pn_x F) (op_roles P) (s_lat s) (op_elevs P) (op_times P) (op_reference P) = Ok X' /\ nc_open o {| pn_x := X'; pn_names := pn_names F |} = Ok P' /\
    op_times P' = op_times P /\ op_reference P' = op_reference P /\ op_lats P' = op_lats P /\ op_lons P' = op_lons P /\ op_laf P' = op_laf P /\
    forall i j, on_grid (pn_x F) (s_roles s) i j -> exists w w', get2 (op_elevs P) i j = Ok w /\ get2 (op_elevs P') i j = Ok w' /\ kept w w'.
Proof.
  intros HD HG HT EO (W1 & W2 & W3 & W4 & W5 & W6 & W7 & W8 & (vt & W9 & W10) & W11 & W12 & W13 & W14 & W15).
  destruct (open_ok o F s HD HG HT) as (P0 & E0 & RO & _ & _ & (RE & _ & GE) & T1 & T2 & T3). rewrite EO in E0. injection E0 as <-. set (X := pn_x F) in *. set (R := s_roles s) in *.
  pose proof HD as (D1 & D2 & [D3 _] & D4 & D5 & D6 & D7 & D8 & D9 & D10). pose proof HG as (N & Ey & Ex & V1 & V2 & V3 & V4 & LA & LO). pose proof HT as [TR TV]. fold X R in D1, D2, D3, D4, D5, D6, D7, D8, D9, D10, N, Ey, Ex, V1, V2, V3, V4, LA, LO, TV.
  rewrite W1 in D3. cbn [or_name] in D3. rewrite W9 in D3, TV. assert (DT : n_dims vt = [r_t R]) by (destruct TV as [[Q _]|[Q _]]; [contradiction|exact Q]).
  assert (ET : times_there X s = map (fun t => n_data vt [t]) (zrange 0 (dim_size X (r_t R)))). { unfold times_there. rewrite W9. fold R. destruct (Z.eqb_spec (r_t R) (-999)); [contradiction|reflexivity]. }
  assert (LT : zlen (op_times P) = dim_size X (r_t R)) by (rewrite T1, ET, zlen_map, zlen_zrange; lia).
  assert (XY : extent X (r_y R) = dim_size X (r_y R)) by (unfold extent; destruct (Z.eqb_spec (r_y R) (-999)); [contradiction|reflexivity]). assert (XX : extent X (r_x R) = dim_size X (r_x R)) by (unfold extent; destruct (Z.eqb_spec (r_x R) (-999)); [contradiction|reflexivity]).
  assert (PR : exists q, present (op_reference P) q).
  { destruct (cvalid (reference_value s)) eqn:V; [apply cvalid_true in V as [q Hq]; exists q; rewrite (T2 q Hq); exact Hq|]. apply not_valid_absent in V. destruct (op_times P) as [|t ts] eqn:Eo; [change (zlen (@nil val)) with 0 in LT; lia|]. rewrite (proj1 (proj2 (T3 V)) W6 t ts) by congruence. apply W12. left. reflexivity. }
  destruct PR as [q PR]. unfold full_grid in RE. rewrite XY, XX in RE. rewrite XY in Ey. rewrite XX in Ex.
  destruct (rest_ok X R (s_lat s) vt (op_elevs P) (op_times P) (op_reference P) q) as (X' & vt' & vr' & EW & [SX SN] & (A1 & A2 & A3) & (B1 & B2 & B3) & CA); auto; [intros v Hv; rewrite D10 in Hv; split; [apply TR; exact Hv|apply W13; exact Hv]|].
  assert (DS : forall d, dim_size X' d = dim_size X d) by (intros d; apply dims_size; exact SX). assert (EX : forall d, extent X' d = extent X d) by (intros d; unfold extent; rewrite DS; reflexivity).
  assert (OG : forall i j, on_grid X' R i j <-> on_grid X R i j) by (intros i j; unfold on_grid; rewrite !EX; tauto).
  assert (HE : exists e', elevation_of X' None e' /\ (forall v c, e' = Some (v, c) -> grid_var X' R v) /\ forall i j w w', on_grid X R i j -> get2 (op_elevs P) i j = Ok w -> match e' with Some (v, c) => scaled c (value_there R v i j) w' | None => w' = CMV end -> kept w w').
  { destruct CA as [CA|(va' & CA1 & CA2 & CA3 & CA4)].
    - exists (s_elev s). split; [|split].
      + rewrite W2 in D8. unfold elevation_of in D8 |- *. rewrite CA, (SN (txt "surface_geopotential")) by (eapply not_written; [|reflexivity]; vm_compute; reflexivity). exact D8.
      + intros v c Hv. eapply grid_var_dims; [exact SX|]. exact (V3 v c Hv).
      + intros i j w w' Hij Hw Hw'. destruct (GE i j Hij) as [(w0 & E0 & Hw0) _]. rewrite Hw in E0. injection E0 as <-. assert (w' = w) as -> by (destruct (s_elev s) as [[v c]|]; [eapply scaled_unique; eassumption|congruence]). split; [intros p [-> _]; reflexivity|auto].
    - exists (Some (va', 1%Qc)). split; [left; exists va'; auto|]. assert (D2L : zlen (n_dims va') <> 1) by (destruct CA2 as [-> | ->]; discriminate). split.
      + intros v c Hv. injection Hv as <- <-. split; [split|split].
        * destruct CA2 as [-> | ->]; constructor; [intros [H|[]]; auto|constructor; [intros []|constructor]|intros [H|[]]; auto|constructor; [intros []|constructor]].
        * intros k Hk. rewrite SX. destruct CA2 as [C|C]; rewrite C in Hk; destruct Hk as [<-|[<-|[]]]; auto.
        * intros k Hk. rewrite DS. destruct CA2 as [C|C]; rewrite C in Hk; destruct Hk as [<-|[<-|[]]]; auto.
        * right. split; [exact D2L|]. destruct CA2 as [-> | ->]; cbn; auto.
      + intros i j w w' Hij Hw [Sc1 Sc2]. pose proof Hij as [Hi Hj]. rewrite XY in Hi. rewrite XX in Hj. pose proof (CA4 i j w Hi Hj Hw) as RAW. unfold value_there in Sc1, Sc2. replace (zlen (n_dims va') =? 1) with false in Sc1, Sc2 by (symmetry; apply Z.eqb_neq; auto). cbn [negb andb] in Sc1, Sc2. rewrite RAW, CA3 in Sc1, Sc2.
        assert (AC : absent CMV) by (apply not_valid_absent; reflexivity). split.
        * intros p Hp. assert (cvalid w = true) as V by (apply cvalid_true; exists p; exact Hp). rewrite V, andb_false_r in Sc1. pose proof Hp as [-> _]. rewrite veqb_fin in Sc1 by (unfold altitude_fill; apply (W15 i j p Hw)). rewrite (Sc1 p Hp). f_equal. ring.
        * intros Hp. pose proof Hp as V. apply not_valid_absent in V. rewrite V, andb_true_r in Sc2. destruct (cvalid (altitude_fill X)) eqn:VF.
          -- apply cvalid_true in VF as (m & Em & _). rewrite Em in Sc2. cbn [veqb] in Sc2. destruct (qeqb_spec m m) as [_|]; [|congruence]. rewrite (Sc2 AC). exact AC.
          -- destruct (veqb w (altitude_fill X)); [rewrite (Sc2 AC); exact AC|rewrite (Sc2 Hp); exact Hp]. }
  destruct HE as (e' & HE1 & HE2 & HE3).
  set (s' := {| s_roles := R; s_lat := s_lat s; s_lon := s_lon s; s_time := Some vt'; s_elev := e'; s_laf := s_laf s; s_ref := Some vr' |}). set (F' := {| pn_x := X'; pn_names := pn_names F |}).
  assert (UV : forall given usual v, In given [no_lat o; no_lon o; no_laf o] -> (forall n, In n usual -> ~ In n written_names) -> used_var F given usual v -> used_var F' given usual v).
  { intros given usual v Hin Hu. unfold used_var. cbn [pn_x F']. fold X. destruct given as [n|]; [rewrite SN by (apply W3; exact Hin); auto|]. apply first_of_same. intros n Hn. apply SN, Hu, Hn. }
  assert (NW : forall n, In n [txt "latitude"; txt "lat"; txt "longitude"; txt "lon"; txt "land_area_fraction"] -> ~ In n written_names). { intros n Hn. eapply not_written; [|reflexivity]. destruct Hn as [<-|[<-|[<-|[<-|[<-|[]]]]]]; vm_compute; reflexivity. }
  assert (U1 : used_var F' (no_lat o) [txt "latitude"; txt "lat"] (s_lat s)) by (apply UV; [cbn; auto|intros n Hn; apply NW; cbn in Hn |- *; tauto|exact D1]). assert (U2 : used_var F' (no_lon o) [txt "longitude"; txt "lon"] (s_lon s)) by (apply UV; [cbn; auto|intros n Hn; apply NW; cbn in Hn |- *; tauto|exact D2]).
  assert (U3 : find_name (x_vars X') (or_name (no_laf o) (txt "land_area_fraction")) = find_name (x_vars X) (or_name (no_laf o) (txt "land_area_fraction"))). { apply SN. destruct (no_laf o) as [n|] eqn:En; cbn [or_name]; [apply W3; cbn; auto|apply NW; cbn; tauto]. }
  assert (HD' : describes o F' s').
  { unfold describes. cbv zeta. cbn [s' s_roles s_lat s_lon s_time s_elev s_laf s_ref pn_x F' pn_names]. split; [exact U1|]. split; [exact U2|]. split; [split; [rewrite W1; exact A1|discriminate]|]. split; [exact D4|]. split; [exact D5|]. split; [exact D6|]. split; [exact D7|]. split; [rewrite W2; exact HE1|]. split; [rewrite U3; exact D9|exact B1]. }
  assert (HG' : grid_ready (pn_x F') s').
  { unfold grid_ready. cbv zeta. cbn [s' s_roles s_lat s_lon s_time s_elev s_laf s_ref pn_x F']. rewrite !EX, XY, XX. split; [exact N|]. split; [exact Ey|]. split; [exact Ex|]. split; [eapply grid_var_dims; eassumption|]. split; [eapply grid_var_dims; eassumption|]. split; [exact HE2|]. split; [intros v Hv; eapply grid_var_dims; [exact SX|auto]|].
    split; intros i j Hij; apply OG in Hij; auto. }
  assert (HT' : times_ready (pn_x F') s'). { unfold times_ready. cbn [s' s_roles s_time s_ref pn_x F']. split; [intros v Hv; injection Hv as <-; exact B2|]. right. split; [exact A2|rewrite DS; lia]. }
  destruct (open_ok o F' s' HD' HG' HT') as (P' & EP & RO' & _ & _ & (_ & _ & GE') & T1' & T2' & _). exists X', P'. rewrite RO. split; [exact EW|]. split; [exact EP|].
  split; [rewrite T1'; unfold times_there; cbn [s' s_roles s_time pn_x F']; destruct (Z.eqb_spec (r_t R) (-999)); [contradiction|]; rewrite DS; exact A3|].
  split; [assert (RV : reference_value s' = op_reference P) by exact B3; rewrite <- RV; apply (T2' q); rewrite RV; exact PR|].
  destruct (open_parts o F P EO) as (vlat & vlon & lons & P1 & P2 & P3 & P4 & P5 & P6). destruct (open_parts o F' P' EP) as (vlat' & vlon' & lons' & P1' & P2' & P3' & P4' & P5' & P6'). cbn [s' s_roles] in RO'. rewrite RO in *. rewrite RO' in *. cbn [pn_x F'] in *. fold X in P3, P4, P6.
  rewrite (no_var_ok _ _ _ _ D1) in P1. rewrite (no_var_ok _ _ _ _ D2) in P2. rewrite (no_var_ok _ _ _ _ U1) in P1'. rewrite (no_var_ok _ _ _ _ U2) in P2'. injection P1 as <-. injection P2 as <-. injection P1' as <-. injection P2' as <-. rewrite (latlon_dims X X') in P3', P4' by exact SX.
  rewrite P3 in P3'. injection P3' as P3'. rewrite P4 in P4'. injection P4' as <-. rewrite P5 in P5'. injection P5' as P5'. split; [congruence|]. split; [congruence|].
  split; [|intros i j Hij; destruct (GE i j Hij) as [(w & Ew & _) _]; destruct (GE' i j (proj2 (OG i j) Hij)) as [(w' & Ew' & Hw') _]; exists w, w'; split; [exact Ew|]; split; [exact Ew'|]; eapply HE3; eassumption].
  unfold no_fractions in P6, P6'. fold (or_name (no_laf o) (txt "land_area_fraction")) in P6, P6'. rewrite U3, D9 in P6'. rewrite D9 in P6. rewrite <- P3' in P6'. destruct (s_laf s) as [v|]; [rewrite (latlon_dims X X') in P6' by exact SX|]; congruence.
Qed.
(** examples: a file without altitudes, a file without a reference time, and altitudes that depend on time *)
Definition globe_opened : opened := match nc_open plain_options globe with Ok P => P | _ => {| op_roles := s_roles globe_shape; op_ens := 0; op_lats := []; op_lons := []; op_elevs := []; op_laf := []; op_times := []; op_reference := NaN |} end.
Lemma grid_some {A} (p : A -> bool) (g : list (list A)) i j a : get2 g i j = Ok a -> p a = true -> existsb (existsb p) g = true.
Proof.
  intros H Hp. unfold get2 in H. destruct (znth g i) as [row| | |] eqn:Er; try discriminate. cbn [bind] in H. apply existsb_exists. exists row. split; [apply (znth_In _ _ _ Er)|]. apply existsb_exists. exists a. split; [apply (znth_In _ _ _ H)|exact Hp].
Qed.
Lemma globe_rewritable : nc_open plain_options globe = Ok globe_opened /\ rewritable plain_options globe globe_shape globe_opened.
Proof.
  split; [vm_compute; reflexivity|]. unfold rewritable. cbv zeta. split; [reflexivity|]. split; [reflexivity|]. split; [intros n [H|[H|[H|[]]]]; discriminate H|]. do 3 (split; [cbn; lia|]). do 2 (split; [vm_compute; split; [discriminate|reflexivity]|]).
  split; [exists gtime; split; [reflexivity|intros w; reflexivity]|]. split; [vm_compute; reflexivity|]. split.
  - intros t Ht. vm_compute in Ht. destruct Ht as [<-|[<-|[]]]; eexists; (split; [reflexivity|]); intros Q; apply (f_equal (fun a => Qnum (this a))) in Q; vm_compute in Q; discriminate Q.
  - split; [intros v Hv; injection Hv as <-; intros w; reflexivity|]. split; [discriminate|]. intros i j q. change (match find_name (x_vars (pn_x globe)) (txt "altitude") with Some v => fill_of v | None => fill_float end) with fill_float. intros H E. rewrite E in H.
    assert (G : existsb (existsb (fun e => veqb e fill_float)) (op_elevs globe_opened) = false) by (vm_compute; reflexivity). assert (G' : existsb (existsb (fun e => veqb e fill_float)) (op_elevs globe_opened) = true); [|congruence].
    apply (grid_some _ _ i j _ H). vm_compute. reflexivity.
Qed.
Definition again (o : no_options) (F : pn_file) (vlat : nc_var) (P : opened) : res opened := X' <- write_rest (pn_x F) (op_roles P) vlat (op_elevs P) (op_times P) (op_reference P) ;; nc_open o {| pn_x := X'; pn_names := pn_names F |}.
Lemma c276_missing : exists o F v P X' P', used_var F (no_lat o) [txt "latitude"; txt "lat"] v /\ nc_open o F = Ok P /\ write_rest (pn_x F) (op_roles P) v (op_elevs P) (op_times P) (op_reference P) = Ok X' /\ nc_open o {| pn_x := X'; pn_names := pn_names F |} = Ok P' /\
  absent (op_reference P) /\ exists q, present (op_reference P') q /\ (q > qz 1000000000000)%Qc.
Proof.
  exists plain_options, one_time, (numbers [0] (fun _ => 60)). eexists. eexists. eexists. split; [first_at [txt "latitude"] (txt "lat") (@nil str)|]. split; [vm_compute; reflexivity|]. split; [vm_compute; reflexivity|]. split; [vm_compute; reflexivity|].
  split; [apply not_valid_absent; reflexivity|]. eexists. split; [split; [reflexivity|]|vm_compute; reflexivity]. intros Q; apply (f_equal (fun a => Qnum (this a))) in Q; vm_compute in Q; discriminate Q.
Qed.
(** altitudes that change with time can be read but not written *)
Definition moving : pn_file := {| pn_x := {| x_dims := [(1, false); (1, false); (1, true)]; x_vars := [(txt "lat", numbers [0] (fun _ => 60)); (txt "lon", numbers [1] (fun _ => 10)); (txt "time", numbers [2] (fun _ => 5)); (txt "altitude", numbers [2; 0; 1] (fun _ => 300))] |};
  pn_names := [(txt "y", 0); (txt "x", 1); (txt "time", 2)] |}.
Lemma c276_altitude : exists o F v P, used_var F (no_lat o) [txt "latitude"; txt "lat"] v /\ nc_open o F = Ok P /\ write_rest (pn_x F) (op_roles P) v (op_elevs P) (op_times P) (op_reference P) = Abort.
Proof. exists plain_options, moving, (numbers [0] (fun _ => 60)). eexists. split; [first_at [txt "latitude"] (txt "lat") (@nil str)|]. split; vm_compute; reflexivity. Qed.
