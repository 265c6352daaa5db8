(** Proofs about the client's NetCDF parameter files: what is not guaranteed. *)
From Coq Require Import Ascii String Sorted.
From Verif Require Import Base QcTac ListLib M_COpt S_COpt M_CUtil S_CUtil M_CCal P_CCal M_CTree S_CTree P_CTree M_CDown M_CKrig P_COpt M_CFile P_CFile M_CNc S_CNc P_CNc M_CPar S_CPar P_CPar M_CParNc S_CParNc P_CParNc P_CParNc2 P_CParNc3 P_CParNc4 P_CParNc5.
Local Open Scope Z_scope.

Definition numbers (ds : list Z) (data : list Z -> Z) : nc_var := {| n_dims := ds; n_data := fun i => fz (data i); n_fill := None; n_scale := None; n_offset := None; n_store := Some |}.
(** two times, one row, two columns, one parameter; the times are a dimension but not a variable *)
Definition timeless : pn_file := {| pn_x := {| x_dims := [(2, false); (1, false); (2, false); (1, false)];
    x_vars := [(txt "lat", numbers [1] (fun _ => 60)); (txt "lon", numbers [2] (fun i => match i with [j] => 10 + j | _ => 0 end)); (txt "coefficient", numbers [0; 1; 2; 3] (fun i => match i with t :: _ :: j :: _ => 10 * t + j | _ => 0 end))] |};
  pn_names := [(txt "time", 0); (txt "lat", 1); (txt "lon", 2); (txt "coeff", 3)] |}.
Definition column (j : Z) : location := {| l_lat := fz 60; l_lon := fz (10 + j); l_elev := CMV |}.
Lemma c269_time : exists F g, pn_read sort_items pn_defaults false F = Ok g /\ (exists v, find_name (x_vars (pn_x F)) (txt "coefficient") = Some v /\ n_dims v = [0; 1; 2; 3] /\ find_name (pn_names F) (txt "time") = Some 0 /\ dim_size (pn_x F) 0 = 2 /\ n_data v [1; 0; 1; 0] = fz 11) /\
  forall gc, get_parameters gc g 1 (column 1) false = Ok [fz 1].
Proof.
  destruct (pn_read sort_items pn_defaults false timeless) as [g| | |] eqn:E; try (vm_compute in E; discriminate). exists timeless, g. split; [exact E|]. split; [eexists; repeat split; reflexivity|]. intros gc.
  unfold get_parameters. assert (M : p_map g = [(column 0, [[fz 0]]); (column 1, [[fz 1]])]) by (vm_compute in E; injection E as <-; reflexivity).
  assert (U : use_time g 1 = Ok 0) by (vm_compute in E; injection E as <-; reflexivity). rewrite U. cbn [bind]. rewrite M. reflexivity.
Qed.
(** five dimensions: the array of indices has four places *)
Definition fivefold : pn_file := {| pn_x := {| x_dims := [(1, false); (1, false); (1, false); (1, false); (1, false)];
    x_vars := [(txt "lat", numbers [1] (fun _ => 60)); (txt "lon", numbers [2] (fun _ => 10)); (txt "time", numbers [0] (fun _ => 0)); (txt "coefficient", numbers [0; 4; 1; 2; 3] (fun _ => 1))] |};
  pn_names := [(txt "time", 0); (txt "lat", 1); (txt "lon", 2); (txt "coeff", 3); (txt "height", 4)] |}.
Lemma c269_dimensions : exists F v, find_name (x_vars (pn_x F)) (txt "coefficient") = Some v /\ zlen (n_dims v) = 5 /\ pn_read sort_items pn_defaults false F = UB.
Proof. exists fivefold. eexists. split; [reflexivity|]. split; [reflexivity|]. vm_compute. reflexivity. Qed.
(** coordinates that are given for each of two times *)
Definition moving : pn_file := {| pn_x := {| x_dims := [(2, false); (1, false); (1, false); (1, false)];
    x_vars := [(txt "lat", numbers [0; 1; 2] (fun _ => 60)); (txt "lon", numbers [0; 1; 2] (fun _ => 10)); (txt "time", numbers [0] (fun _ => 0)); (txt "coefficient", numbers [0; 1; 2; 3] (fun _ => 1))] |};
  pn_names := [(txt "time", 0); (txt "lat", 1); (txt "lon", 2); (txt "coeff", 3)] |}.
Lemma c269_coordinates : exists F v, find_name (x_vars (pn_x F)) (txt "lat") = Some v /\ zlen (n_dims v) = 3 /\ pn_read sort_items pn_defaults false F = UB.
Proof. exists moving. eexists. split; [reflexivity|]. split; [reflexivity|]. vm_compute. reflexivity. Qed.

(** a file with the name of the dimension of the parameters given is written but not read *)
Lemma c271_name srt gc o cycle f F : pn_write gc o f = Ok F -> ~ In (po_dim o) [txt "time"; txt "lon"; txt "lat"; txt "coeff"] -> po_xdim o = [] -> po_ydim o = [] -> pn_read srt o cycle F = Abort.
Proof.
  intros E H O2 O3. assert (EN : pn_names F = [(txt "time", 0); (txt "lon", 1); (txt "lat", 2); (txt "coeff", 3)]).
  { unfold pn_write in E. destruct (p_locs f); [discriminate|]. destruct (zlen (get_times f) =? 0); [discriminate|]. apply bind_Ok in E as (n & _ & E). destruct (n =? 0); [discriminate|]. destruct (existsb _ _); [discriminate|].
    do 6 (apply bind_Ok in E as (? & _ & E)). injection E as <-. reflexivity. }
  unfold pn_read, pn_lon_dim, pn_lat_dim, pn_dim. rewrite O2, O3. cbn [str_eqb]. rewrite EN. change (first_name _ [txt "lon"; txt "longitude"; txt "x"]) with (Some 1). change (first_name _ [txt "lat"; txt "latitude"; txt "y"]) with (Some 2). cbn [or_abort bind].
  replace (find_name [(txt "time", 0); (txt "lon", 1); (txt "lat", 2); (txt "coeff", 3)] (po_dim o)) with (@None Z); [reflexivity|]. symmetry. cbn [find_name].
  destruct (str_eqb_spec (txt "time") (po_dim o)) as [EQ|]; [exfalso; apply H; rewrite <- EQ; cbn; tauto|]. destruct (str_eqb_spec (txt "lon") (po_dim o)) as [EQ|]; [exfalso; apply H; rewrite <- EQ; cbn; tauto|]. destruct (str_eqb_spec (txt "lat") (po_dim o)) as [EQ|]; [exfalso; apply H; rewrite <- EQ; cbn; tauto|]. destruct (str_eqb_spec (txt "coeff") (po_dim o)) as [EQ|]; [exfalso; apply H; rewrite <- EQ; cbn; tauto|reflexivity].
Qed.
(** the first location has no parameters *)
Definition lacking : list setting := [(0, spot 20, [fz 2]); (0, spot 10, [])].
Lemma c271_first : good_history lacking /\ all_sited lacking /\ exists f0 f, set_all lacking (new_pfile false) = Ok f0 /\ recompute_tree sort_items f0 = Ok f /\ (forall gc, get_parameters gc f 0 (spot 20) false = Ok [fz 2]) /\ forall gc o, pn_write gc o f = Abort.
Proof.
  split; [intros e [<-|[<-|[]]]; (split; [unfold is_time, at_; cbn; lia|split; discriminate])|]. split; [intros e [<-|[<-|[]]]; eexists; eexists; apply spot_sited; lia|].
  destruct (set_all lacking (new_pfile false)) as [f0| | |] eqn:E0; try (vm_compute in E0; discriminate). destruct (recompute_tree sort_items f0) as [f| | |] eqn:E1; try (vm_compute in E0; injection E0 as <-; vm_compute in E1; discriminate).
  exists f0, f. split; [reflexivity|]. split; [exact E1|]. vm_compute in E0. injection E0 as <-. vm_compute in E1. injection E1 as <-. split; [intros gc; vm_compute; reflexivity|]. intros gc o. vm_compute. reflexivity.
Qed.
Definition lone : list setting := [(0, spot 10, [fz 7])].
Definition renamed : pn_options := {| po_dim := txt "p"; po_var := txt "coefficient"; po_xdim := []; po_ydim := [] |}.
Lemma c271_refuted : exists h f0 f o, good_history h /\ all_sited h /\ set_all h (new_pfile false) = Ok f0 /\ recompute_tree sort_items f0 = Ok f /\ (forall gc, get_parameters gc f 0 (spot 10) false = Ok [fz 7]) /\
  forall gc, exists F, pn_write gc o f = Ok F /\ pn_read sort_items o false F = Abort.
Proof.
  exists lone. destruct (set_all lone (new_pfile false)) as [f0| | |] eqn:E0; try (vm_compute in E0; discriminate). destruct (recompute_tree sort_items f0) as [f| | |] eqn:E1; try (vm_compute in E0; injection E0 as <-; vm_compute in E1; discriminate).
  exists f0, f, renamed. split; [intros e [<-|[]]; (split; [unfold is_time, at_; cbn; lia|split; discriminate])|]. split; [intros e [<-|[]]; eexists; eexists; apply spot_sited; lia|]. split; [reflexivity|]. split; [exact E1|]. split; [intros gc; vm_compute in E0; injection E0 as <-; vm_compute in E1; injection E1 as <-; vm_compute; reflexivity|].
  intros gc. destruct (pn_write gc renamed f) as [F| | |] eqn:EW.
  - exists F. split; [reflexivity|]. apply (c271_name sort_items gc renamed false f F EW); [cbn; intuition discriminate|reflexivity|reflexivity].
  - exfalso. vm_compute in E0; injection E0 as <-; vm_compute in E1; injection E1 as <-; vm_compute in EW; discriminate.
  - exfalso. vm_compute in E0; injection E0 as <-; vm_compute in E1; injection E1 as <-; vm_compute in EW; discriminate.
  - exfalso. vm_compute in E0; injection E0 as <-; vm_compute in E1; injection E1 as <-; vm_compute in EW; discriminate.
Qed.
Lemma c269_read srt o cycle F s : sorts_items srt -> shape_of o F s -> well_shaped (pn_x F) s -> well_placed (pn_x F) s ->
  exists g, pn_read srt o cycle F = Ok g /\ forall gc t u, (t < 0 -> forall k near, get_parameters gc g t k near = Abort) /\ (0 <= t -> time_for (pn_x F) s cycle t u ->
  (times_of (pn_x F) s <= u -> forall k near, get_parameters gc g t k near = Abort) /\
  (u < times_of (pn_x F) s -> (forall i j, inside (pn_x F) s i j -> last_there (pn_x F) s i j -> get_parameters gc g t (place_at s i j) false = Ok (set_at (pn_x F) s i j u)) /\
    (forall k, placed k -> (forall i j, inside (pn_x F) s i j -> ~ same_place (place_at s i j) k) -> get_parameters gc g t k false = Ok []))).
Proof. intros H1 H2 H3 H4. exact (c269 srt o cycle F s H1 H2 H3 H4). Qed.
Lemma c270_nearest D srt o cycle F s t u k lat lon : sorts_items srt -> shape_of o F s -> well_shaped (pn_x F) s -> well_placed (pn_x F) s ->
  zero_at_itself D -> straight D -> 0 <= t -> time_for (pn_x F) s cycle t u -> u < times_of (pn_x F) s -> sited k lat lon -> exists g i j la lo, pn_read srt o cycle F = Ok g /\
  inside (pn_x F) s i j /\ sited (place_at s i j) la lo /\ get_parameters (lift4 D) g t k true = Ok (set_at (pn_x F) s i j u) /\
  (forall i' j' la' lo', inside (pn_x F) s i' j' -> sited (place_at s i' j') la' lo' -> (D lat lon la lo <= D lat lon la' lo')%Qc).
Proof. intros H1 H2 H3 H4. exact (c270 srt o cycle F s H1 H2 H3 H4 D t u k lat lon). Qed.

(** two times, two rows, two columns and two parameters; the dimensions in an unusual order, a fill value *)
Definition vlat : nc_var := numbers [2; 1] (fun i => match i with [j; i] => 60 + i + 2 * j | _ => 0 end).
Definition vlon : nc_var := numbers [2] (fun i => match i with [j] => 10 + j | _ => 0 end).
Definition vcoef : nc_var := {| n_dims := [3; 2; 0; 1]; n_data := fun i => match i with [c; j; t; i] => fz (1000 * t + 100 * i + 10 * j + c) | _ => NaN end; n_fill := Some (fz 1100); n_scale := None; n_offset := None; n_store := Some |}.
Definition mixed : pn_file := {| pn_x := {| x_dims := [(2, false); (2, false); (2, false); (2, false)];
    x_vars := [(txt "latitude", vlat); (txt "lon", vlon); (txt "time", numbers [0] (fun _ => 5)); (txt "coefficient", vcoef)] |};
  pn_names := [(txt "time", 0); (txt "y", 1); (txt "longitude", 2); (txt "coeff", 3)] |}.
Definition mixed_shape : shape := {| d_lat := 1; d_lon := 2; d_time := Some 0; d_coeff := 3; v_lat := vlat; v_lon := vlon; v_elev := None; v_par := vcoef |}.
Definition mixed_place (i j : Z) : location := {| l_lat := fz (60 + i + 2 * j); l_lon := fz (10 + j); l_elev := CMV |}.
Lemma mixed_ok : shape_of pn_defaults mixed mixed_shape /\ well_shaped (pn_x mixed) mixed_shape /\ well_placed (pn_x mixed) mixed_shape.
Proof.
  split; [|split].
  - split; [right; split; [reflexivity|]; exists [txt "lat"; txt "latitude"], (txt "y"), []; split; [reflexivity|]; split; [intros ? [<-|[<-|[]]]; reflexivity|reflexivity]|].
    split; [right; split; [reflexivity|]; exists [txt "lon"], (txt "longitude"), [txt "x"]; split; [reflexivity|]; split; [intros ? [<-|[]]; reflexivity|reflexivity]|]. split; [reflexivity|].
    split; [exists [txt "lat"], (txt "latitude"), []; split; [reflexivity|]; split; [intros ? [<-|[]]; reflexivity|reflexivity]|]. split; [exists [], (txt "lon"), [txt "longitude"]; split; [reflexivity|]; split; [intros ? []|reflexivity]|]. split; [reflexivity|]. split; [reflexivity|]. split; [reflexivity|]. eexists. split; reflexivity.
  - unfold well_shaped. cbn [d_lat d_lon d_time d_coeff v_lat v_lon v_elev v_par mixed_shape]. split; [lia|]. split; [lia|]. split; [lia|]. split; [intros d Hd; injection Hd as <-; lia|].
    split; [split; [discriminate|]; split; [repeat (constructor; [cbn; lia|]); constructor|]; intros d [<-|[<-|[]]]; auto|]. split; [split; [discriminate|]; split; [repeat (constructor; [cbn; lia|]); constructor|]; intros d [<-|[]]; auto|]. split; [discriminate|].
    split; [repeat (constructor; [cbn; lia|]); constructor|]. split; [cbn; auto|]. split; [cbn; auto|]. split; [cbn; auto|]. split; [vm_compute; discriminate|]. split; [intros d [<-|[<-|[<-|[<-|[]]]]]; (split; [lia|vm_compute; reflexivity])|vm_compute; auto].
  - intros i j [Hi Hj]. change (0 <= i < 2) in Hi. change (0 <= j < 2) in Hj. exists (qz (60 + i + 2 * j)), (qz (10 + j)). split; [reflexivity|]. split; [reflexivity|]. split; [repeat split; apply qz_le; lia|]. split; intros E; apply (qz_inj _ (-999)) in E; lia.
Qed.
