(** Proofs about opening a NetCDF file of the client: the guarantees one by one, examples, and what is not guaranteed. *)
From Coq Require Import Ascii String.
From Verif Require Import Base QcTac ListLib M_COpt S_COpt M_CUtil S_CUtil M_CCal P_CCal M_CTree S_CTree P_CTree M_CDown P_CDown M_CKrig P_COpt M_CFile P_CFile M_CNc S_CNc P_CNc5 M_CPar S_CPar P_CPar M_CParNc S_CParNc P_CParNc P_CParNc6 M_CNcOpen S_CNcOpen P_CNcOpen.
Local Open Scope Z_scope.

Lemma c272 o F s : describes o F s -> grid_ready (pn_x F) s -> times_ready (pn_x F) s -> exists P, nc_open o F = Ok P /\ op_roles P = s_roles s /\ op_ens P = extent (pn_x F) (r_e (s_roles s)) /\
  full_grid (pn_x F) (s_roles s) (op_lats P) /\ full_grid (pn_x F) (s_roles s) (op_lons P) /\ forall i j, on_grid (pn_x F) (s_roles s) i j -> get2 (op_lats P) i j = Ok (value_there (s_roles s) (s_lat s) i j) /\
    exists q r k, value_there (s_roles s) (s_lon s) i j = Fin q /\ get2 (op_lons P) i j = Ok (Fin r) /\ (qz (-180) <= r <= qz 180)%Qc /\ (q = r + qz (360 * k))%Qc.
Proof. intros H1 H2 H3. destruct (open_ok o F s H1 H2 H3) as (P & E & A & B & C & _). exists P. auto. Qed.
Lemma c273 o F s P : describes o F s -> grid_ready (pn_x F) s -> times_ready (pn_x F) s -> nc_open o F = Ok P -> full_grid (pn_x F) (s_roles s) (op_elevs P) /\ full_grid (pn_x F) (s_roles s) (op_laf P) /\ forall i j, on_grid (pn_x F) (s_roles s) i j ->
    (exists w, get2 (op_elevs P) i j = Ok w /\ match s_elev s with Some (v, c) => scaled c (value_there (s_roles s) v i j) w | None => w = CMV end) /\
    get2 (op_laf P) i j = Ok (match s_laf s with Some v => value_there (s_roles s) v i j | None => CMV end).
Proof. intros H1 H2 H3 E'. destruct (open_ok o F s H1 H2 H3) as (P' & E & A & B & C & D & _). rewrite E' in E. injection E as <-. exact D. Qed.
Lemma c274 o F s P : describes o F s -> grid_ready (pn_x F) s -> times_ready (pn_x F) s -> nc_open o F = Ok P -> op_times P = times_there (pn_x F) s /\ (forall q, present (reference_value s) q -> op_reference P = reference_value s) /\
   (absent (reference_value s) -> r_t (s_roles s) <> -999 -> forall t ts, op_times P = t :: ts -> op_reference P = t).
Proof. intros H1 H2 H3 E'. destruct (open_ok o F s H1 H2 H3) as (P' & E & A & B & C & D & T1 & T2 & T3). rewrite E' in E. injection E as <-. split; [exact T1|]. split; [exact T2|]. intros HA Q t ts Et. rewrite T1 in Et. destruct (T3 HA) as (_ & T4 & _). exact (T4 Q t ts Et). Qed.

(** variables and dimensions named in the options are there *)
Lemma c272_named o F P : nc_open o F = Ok P ->
  (forall n, no_y o = Some n -> find_name (pn_names F) n = Some (r_y (op_roles P))) /\ (forall n, no_x o = Some n -> find_name (pn_names F) n = Some (r_x (op_roles P))) /\ (forall n, no_tdim o = Some n -> find_name (pn_names F) n = Some (r_t (op_roles P))) /\
  (forall n, In (Some n) [no_lat o; no_lon o; no_time o] -> exists v, find_name (x_vars (pn_x F)) n = Some v).
Proof.
  unfold nc_open. intros E. apply bind_Ok in E as (vlat & E1 & E). apply bind_Ok in E as (vlon & E2 & E). apply bind_Ok in E as (vtime & E3 & E). apply bind_Ok in E as (y & Ey & E). apply bind_Ok in E as (x & Ex & E). apply bind_Ok in E as (t & Et & E). apply bind_Ok in E as (lats & _ & E). destruct (existsb _ lats); [discriminate|].
  apply bind_Ok in E as (lons & _ & E). destruct (existsb _ lons); [discriminate|]. apply bind_Ok in E as (lons' & _ & E). apply bind_Ok in E as (el & _ & E). apply bind_Ok in E as (laf & _ & E). apply bind_Ok in E as (rf & _ & E). apply bind_Ok in E as (tr & _ & E). injection E as <-. cbn [op_roles r_y r_x r_t].
  assert (D : forall given usual d n, no_dim F given usual = Ok d -> given = Some n -> find_name (pn_names F) n = Some d). { intros given usual d n X ->. unfold no_dim in X. destruct (find_name (pn_names F) n); [|discriminate]. injection X as ->. reflexivity. }
  split; [intros n; apply (D _ _ _ _ Ey)|]. split; [intros n; apply (D _ _ _ _ Ex)|]. split; [intros n; apply (D _ _ _ _ Et)|]. intros n [Q|[Q|[Q|[]]]].
  - rewrite Q in E1. unfold no_var in E1. destruct (find_name _ n) as [v|]; [eauto|discriminate].
  - rewrite Q in E2. unfold no_var in E2. destruct (find_name _ n) as [v|]; [eauto|discriminate].
  - rewrite Q in E3. destruct (find_name _ n) as [v|]; [eauto|discriminate].
Qed.

Definition plain_options : no_options := {| no_lat := None; no_lon := None; no_time := None; no_ens := None; no_y := None; no_x := None; no_tdim := None; no_elev := None; no_laf := None |}.
(** two times, three members, two rows and two columns; the geopotential has times too; a longitude of 190 degrees *)
Definition glat : nc_var := numbers [2; 3] (fun i => match i with [i; j] => 60 + i + 2 * j | _ => 0 end).
Definition glon : nc_var := numbers [3; 2] (fun i => match i with [j; i] => 10 + i + 180 * j | _ => 0 end).
Definition ggeo : nc_var := {| n_dims := [0; 2; 3]; n_data := fun i => match i with [t; i; j] => if (i =? 0) && (j =? 1) then fz 7 else fz (981 * (i + t)) | _ => NaN end; n_fill := Some (fz 7); n_scale := None; n_offset := None; n_store := Some |}.
Definition gtime : nc_var := numbers [0] (fun i => match i with [t] => 3600 * t | _ => 0 end).
Definition gref : nc_var := numbers [] (fun _ => 1800).
Definition globe : pn_file := {| pn_x := {| x_dims := [(2, true); (3, false); (2, false); (2, false)];
    x_vars := [(txt "lat", glat); (txt "longitude", glon); (txt "time", gtime); (txt "surface_geopotential", ggeo); (txt "forecast_reference_time", gref)] |};
  pn_names := [(txt "time", 0); (txt "ensemble_member", 1); (txt "latitude", 2); (txt "x", 3)] |}.
Definition globe_shape : description := {| s_roles := {| r_t := 0; r_e := 1; r_y := 2; r_x := 3 |}; s_lat := glat; s_lon := glon; s_time := Some gtime; s_elev := Some (ggeo, Q2Qc (100 # 981)); s_laf := None; s_ref := Some gref |}.
Ltac first_at a n b := exists a, n, b; split; [reflexivity|split; [intros ? H; cbn in H; repeat (destruct H as [<-|H]; [reflexivity|]); destruct H|reflexivity]].
Ltac is_sound := split; [repeat (constructor; [cbn; lia|]); constructor|intros k H; cbn in H; repeat (destruct H as [<-|H]; [vm_compute; split; [discriminate|reflexivity]|]); destruct H].
Ltac is_sized := intros k H; cbn in H; repeat (destruct H as [<-|H]; [vm_compute; discriminate|]); destruct H.
Lemma globe_ok : describes plain_options globe globe_shape /\ grid_ready (pn_x globe) globe_shape /\ times_ready (pn_x globe) globe_shape.
Proof.
  split; [|split].
  - unfold describes. cbv zeta. split; [first_at [txt "latitude"] (txt "lat") (@nil str)|]. split; [first_at (@nil str) (txt "longitude") [txt "lon"]|]. split; [split; [reflexivity|intros H; exfalso; apply H; reflexivity]|].
    split; [left; first_at [txt "y"] (txt "latitude") [txt "lat"]|]. split; [left; first_at (@nil str) (txt "x") [txt "longitude"; txt "lon"]|]. split; [left; first_at (@nil str) (txt "time") (@nil str)|]. split; [left; reflexivity|].
    split; [right; left; split; [reflexivity|]; exists ggeo, (Q2Qc (100 # 981)); split; [reflexivity|]; split; [reflexivity|apply Qc_is_canon; reflexivity]|]. split; reflexivity.
  - unfold grid_ready. cbv zeta. split; [cbn; lia|]. split; [vm_compute; discriminate|]. split; [vm_compute; discriminate|].
    split; [split; [is_sound|]; split; [is_sized|right; split; [discriminate|split; cbn; auto]]|]. split; [split; [is_sound|]; split; [is_sized|right; split; [discriminate|split; cbn; auto]]|].
    split; [intros v c E; injection E as <- <-; split; [is_sound|]; split; [is_sized|right; split; [discriminate|split; cbn; auto]]|]. split; [discriminate|].
    split; intros i j [Hi Hj]; change (0 <= i < 2) in Hi; change (0 <= j < 2) in Hj.
    + exists (qz (60 + i + 2 * j)). split; [|split; apply qz_le; lia]. assert (i = 0 \/ i = 1) as [-> | ->] by lia; assert (j = 0 \/ j = 1) as [-> | ->] by lia; vm_compute; reflexivity.
    + exists (qz (10 + i + 180 * j)). split; [|split; [intros Q; rewrite <- qz_0 in Q; apply qz_inj in Q; lia|split; apply qz_le; lia]]. assert (i = 0 \/ i = 1) as [-> | ->] by lia; assert (j = 0 \/ j = 1) as [-> | ->] by lia; vm_compute; reflexivity.
  - split; [intros v E; injection E as <-; reflexivity|]. right. split; [reflexivity|vm_compute; discriminate].
Qed.
(** a longitude of 0 degrees *)
Definition greenwich : pn_file := {| pn_x := {| x_dims := [(1, false); (1, false)]; x_vars := [(txt "lat", numbers [0] (fun _ => 60)); (txt "lon", numbers [1] (fun _ => 0)); (txt "time", numbers [] (fun _ => 5))] |}; pn_names := [(txt "y", 0); (txt "x", 1)] |}.
Lemma c272_greenwich : exists o F v, find_name (x_vars (pn_x F)) (txt "lon") = Some v /\ grid_var (pn_x F) {| r_t := -999; r_e := -999; r_y := 0; r_x := 1 |} v /\ n_data v [0] = fz 0 /\ nc_open o F = UB.
Proof. exists plain_options, greenwich. eexists. split; [reflexivity|]. split; [split; [is_sound|]; split; [is_sized|left; exists 1; split; [reflexivity|right; reflexivity]]|]. split; [reflexivity|vm_compute; reflexivity]. Qed.
(** one time that is not along a dimension: it is not the reference time *)
Definition one_time : pn_file := {| pn_x := {| x_dims := [(1, false); (1, false)]; x_vars := [(txt "lat", numbers [0] (fun _ => 60)); (txt "lon", numbers [1] (fun _ => 10)); (txt "time", numbers [] (fun _ => 5))] |}; pn_names := [(txt "y", 0); (txt "x", 1)] |}.
Lemma c274_reference : exists o F P, nc_open o F = Ok P /\ op_times P = [fz 5] /\ op_reference P = CMV.
Proof. exists plain_options, one_time. eexists. split; [vm_compute; reflexivity|]. split; reflexivity. Qed.
(** the option timeDim: the times are along a longer dimension *)
Definition short_option : no_options := {| no_lat := None; no_lon := None; no_time := None; no_ens := None; no_y := None; no_x := None; no_tdim := Some (txt "run"); no_elev := None; no_laf := None |}.
Definition two_dims : pn_file := {| pn_x := {| x_dims := [(1, false); (1, false); (1, false); (2, false)]; x_vars := [(txt "lat", numbers [0] (fun _ => 60)); (txt "lon", numbers [1] (fun _ => 10)); (txt "time", numbers [3] (fun _ => 5))] |}; pn_names := [(txt "y", 0); (txt "x", 1); (txt "run", 2); (txt "time", 3)] |}.
Lemma c274_sizes : exists o F v, find_name (x_vars (pn_x F)) (txt "time") = Some v /\ zlen (n_dims v) = 1 /\ nc_open o F = UB.
Proof. exists short_option, two_dims. eexists. split; [reflexivity|]. split; [reflexivity|vm_compute; reflexivity]. Qed.
