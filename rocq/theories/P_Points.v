(** C35, C37, C38, C39: grids, points and copies. *)
From Verif Require Import Base ListLib M_Geo S_Geo P_Geo P_Neighbours P_Grid.

(** ** C35 *)
Lemma c35_all : forall G t Y X lats lons g, is_grid G t Y X lats lons g ->
  grid_size g = Ok (Y, X) /\
  (forall k, 0 <= k < Y * X -> exists y x, get_indices g k = Ok (y, x) /\ 0 <= y < Y /\ 0 <= x < X /\ k = y * X + x) /\
  (forall k l, 0 <= k -> 0 <= l -> get_indices g k = get_indices g l -> k = l) /\
  (exists P, to_points g = Ok P /\ points_size P = Y * X /\ points_type P = t /\
     forall k y x, 0 <= k < Y * X -> get_indices g k = Ok (y, x) ->
       exists p, points_get P k = Ok p /\ grid_get g y x = Ok p /\
         get2 (mFin lats) y x = Ok (p_lat p) /\ get2 (mFin lons) y x = Ok (p_lon p) /\
         get2 (g_elevs g) y x = Ok (p_elev p) /\ get2 (g_lafs g) y x = Ok (p_laf p)).
Proof.
  intros G t Y X lats lons g H.
  pose proof (is_grid_pos _ _ _ _ _ _ _ H) as [HY HX]. destruct (is_grid_rect _ _ _ _ _ _ _ H) as [R1 R2].
  pose proof (grid_inv _ _ _ _ _ _ _ H) as (E1 & E2 & EX & HT & Re & Rf).
  pose proof (mk_tree_inv _ _ _ _ _ HT) as (T1 & T2 & T3 & T4 & T5).
  split; [eapply grid_size_ok; eauto|]. split; [|split].
  - intros k Hk. exists (k / X), (k mod X). split; [eapply get_indices_ok; eauto; lia|].
    pose proof (Z.mod_pos_bound k X HX). split.
    { split; [apply Z.div_pos; lia|]. apply Z.div_lt_upper_bound; lia. }
    split; [lia|]. rewrite (Z.div_mod k X) at 1 by lia. lia.
  - intros k l Hk Hl E. rewrite !(get_indices_ok _ _ _ _ _ _ _ _ H) in E by lia. injection E as E3 E4.
    apply (divmod_inj X); [lia|]. congruence.
  - unfold to_points. rewrite (grid_size_ok _ _ _ _ _ _ _ H). cbn [bind].
    rewrite !(tab2_get2 Y X) by (assumption || lia). cbn [bind].
    eexists. split; [reflexivity|]. split; [|split].
    + unfold points_size. cbn. rewrite T1, zlen_map. apply zlen_concat; exact R1.
    + cbn. exact T3.
    + intros k y x Hk E. rewrite (get_indices_ok _ _ _ _ _ _ _ _ H) in E by lia. injection E as <- <-.
      unfold points_get, grid_get. cbn [points_of_tree s_lats s_lons s_elevs s_lafs s_tree].
      rewrite T1, T2, E1, E2, EX.
      assert (Ek : k / X * X + k mod X = k) by (rewrite (Z.div_mod k X) at 3 by lia; lia). rewrite Ek.
      rewrite !concat_map.
      rewrite !(znth_concat Y X) by (try apply rect_mapmap; assumption || lia).
      rewrite !get2_mapmap.
      assert (Ry : 0 <= k / X < Y) by (split; [apply Z.div_pos; lia|apply Z.div_lt_upper_bound; lia]).
      assert (Rx : 0 <= k mod X < X) by (apply Z.mod_pos_bound; lia).
      destruct (rect_get2 _ _ _ _ _ R1 Ry Rx) as [la ->]. destruct (rect_get2 _ _ _ _ _ R2 Ry Rx) as [lo ->].
      destruct (rect_get2 _ _ _ _ _ Re Ry Rx) as [e ->]. destruct (rect_get2 _ _ _ _ _ Rf Ry Rx) as [f ->].
      rewrite zlen_map, (zlen_concat Y X) in T4 by exact R1.
      destruct (znth_some (t_pts (g_tree g)) k) as [q Hq]; [lia|]. rewrite Hq. cbn [bind].
      eexists. split; [reflexivity|]. split; [reflexivity|]. cbn. auto.
Qed.

(** ** C37 *)
Lemma c37_all : forall G t, geo_ok G ->
  (forall las los T la lo num inc, is_tree G t las los T -> valid_loc t la -> 1 <= num ->
    exists I, get_closest_neighbours G T (Fin la) (Fin lo) num inc = Ok I /\ NoDup I /\ zlen I <= num /\
    (forall i, In i I -> exists q, point_at G t las los i q /\ qualifies (position G t la lo) inc q) /\
    (zlen I < num -> forall i q, point_at G t las los i q -> qualifies (position G t la lo) inc q -> In i I) /\
    (forall i j qi qj, In i I -> point_at G t las los i qi -> point_at G t las los j qj ->
       qualifies (position G t la lo) inc qj -> ~ In j I ->
       (sqdist (position G t la lo) qi <= sqdist (position G t la lo) qj)%Qc)) /\
  (forall las los P la lo inc, is_tree G t las los (s_tree P) -> valid_loc t la ->
    (points_nearest G P (Fin la) (Fin lo) inc = Ok (-1) /\ none_qualifies (point_at G t las los) (position G t la lo) inc) \/
    (exists i, 0 <= i < zlen las /\ points_nearest G P (Fin la) (Fin lo) inc = Ok i /\
       closest (point_at G t las los) (position G t la lo) inc i)) /\
  (forall Y X lats lons g la lo inc, is_grid G t Y X lats lons g -> valid_loc t la ->
    (grid_nearest G g (Fin la) (Fin lo) inc = Ok None /\ none_qualifies (grid_at' G t lats lons) (position G t la lo) inc) \/
    (exists c, grid_nearest G g (Fin la) (Fin lo) inc = Ok (Some c) /\ closest (grid_at' G t lats lons) (position G t la lo) inc c)).
Proof.
  intros G t HG. split; [|split]; intros.
  - apply c37_tree; assumption.
  - apply points_nearest_spec; assumption.
  - eapply grid_nearest_spec; eauto.
Qed.

(** ** C38 *)
Lemma points_inv G t las los P : is_points G t las los P ->
  zlen los = zlen las /\ s_lats P = map Fin las /\ s_lons P = map Fin los /\ is_tree G t las los (s_tree P) /\
  zlen (s_elevs P) = zlen las /\ zlen (s_lafs P) = zlen las.
Proof.
  intros (e & f & H). unfold mk_points in H. rewrite !zlen_map in H.
  destruct (zlen los =? zlen las) eqn:E0; [|discriminate]. cbn [negb] in H.
  destruct (_ && _)%bool eqn:E1 in H; [discriminate|]. destruct (_ && _)%bool eqn:E2 in H; [discriminate|].
  apply bind_Ok in H as (T & HT & H). injection H as <-. cbn.
  pose proof (zlen_nonneg las).
  repeat split; [lia|exact HT| |].
  - destruct (zlen e =? zlen las) eqn:E; [lia|]. apply zlen_init1; lia.
  - destruct (zlen f =? zlen las) eqn:E; [lia|]. apply zlen_init1; lia.
Qed.
(** a Cartesian object: the copy is Geodetic (and answers other questions), or copying throws *)
Lemma c38_refuted : forall G, geo_ok G ->
  (exists P Q, is_points G Cartesian [qz 0; qz 10] [qz 0; qz 0] P /\ points_copy G P = Ok Q /\
     points_type P = Cartesian /\ points_type Q = Geodetic) /\
  (exists P, is_points G Cartesian [qz 1000] [qz 0] P /\ points_copy G P = Throw InvalidArgument /\
     points_assign G P = Throw InvalidArgument /\ points_subset G P [0] = Throw InvalidArgument) /\
  (exists P Q, is_points G Cartesian [qz 0; qz 10] [qz 0; qz 0] P /\ points_subset G P [0; 1] = Ok Q /\ points_type Q = Geodetic).
Proof.
  intros G HG. split; [|split].
  - eexists. eexists. split; [exists [], []; cbn; reflexivity|]. split; [cbn; reflexivity|]. split; reflexivity.
  - eexists. split; [exists [], []; cbn; reflexivity|]. split; [|split]; cbn; reflexivity.
  - eexists. eexists. split; [exists [], []; cbn; reflexivity|]. split; [cbn; reflexivity|]. reflexivity.
Qed.
(** Geodetic objects are copied faithfully *)
Lemma valid_of_tree G t las los T : is_tree G t las los T -> forall i la, znth las i = Ok la -> valid_loc t la.
Proof.
  intros H i la Hi. apply mk_tree_inv in H as (_ & _ & _ & _ & H). destruct (H i) as (a & b & H1 & _ & V & _).
  { rewrite zlen_map. eapply znth_range; eauto. }
  rewrite znth_map, Hi in H1. injection H1 as <-. exact V.
Qed.
Lemma subset_geodetic G las los P I : is_points G Geodetic las los P -> Forall (fun i => 0 <= i < zlen las) I ->
  exists Q, points_subset G P I = Ok Q /\ points_type Q = Geodetic /\ points_size Q = zlen I /\
  forall k i, znth I k = Ok i -> exists p, points_get Q k = Ok p /\ points_get P i = Ok p.
Proof.
  intros H HI. destruct (points_inv _ _ _ _ _ H) as (HL & E1 & E2 & HT & L3 & L4).
  set (n := zlen las) in *.
  assert (V : forall i, 0 <= i < n -> exists la lo e f, znth las i = Ok la /\ znth los i = Ok lo /\
     znth (s_lats P) i = Ok (Fin la) /\ znth (s_lons P) i = Ok (Fin lo) /\ znth (s_elevs P) i = Ok e /\ znth (s_lafs P) i = Ok f).
  { intros i Hi. destruct (znth_some las i) as [la Hla]; [subst n; lia|]. destruct (znth_some los i) as [lo Hlo]; [lia|].
    destruct (znth_some (s_elevs P) i) as [e He]; [lia|]. destruct (znth_some (s_lafs P) i) as [f Hf]; [lia|].
    exists la, lo, e, f. rewrite E1, E2, !znth_map, Hla, Hlo. repeat split; auto. }
  set (dv := fun (l : vec) i => match znth l i with Ok v => v | _ => NaN end).
  set (dq := fun (l : list Qc) i => match znth l i with Ok v => v | _ => 0%Qc end).
  assert (M : mapM (fun i => if (i <? 0) || (zlen (s_lats P) <=? i) then Throw InvalidArgument
     else la <- znth (s_lats P) i ;; lo <- znth (s_lons P) i ;;
          el <- znth (s_elevs P) i ;; lf <- znth (s_lafs P) i ;; Ok (la, lo, el, lf)) I
     = Ok (map (fun i => (Fin (dq las i), Fin (dq los i), dv (s_elevs P) i, dv (s_lafs P) i)) I)).
  { apply mapM_ok. intros i Hi. rewrite Forall_forall in HI. specialize (HI i Hi).
    destruct (V i HI) as (la & lo & e & f & Hla & Hlo & H1 & H2 & H3 & H4).
    rewrite E1, zlen_map. fold n. rewrite (proj2 (Z.ltb_ge i 0)), (proj2 (Z.leb_gt n i)) by lia. cbn [orb].
    rewrite <- E1, H1, H2, H3, H4. unfold dq, dv. rewrite Hla, Hlo, H3, H4. reflexivity. }
  unfold points_subset. rewrite M. cbn [bind]. rewrite !map_map. cbn [fst snd].
  rewrite <- (map_map (dq las) Fin), <- (map_map (dq los) Fin).
  unfold mk_points. rewrite !zlen_map, !Z.eqb_refl. cbn [negb]. rewrite !andb_false_r.
  destruct (mk_tree_ok G (map (dq las) I) (map (dq los) I) Geodetic) as [T HT'].
  { rewrite !zlen_map. reflexivity. }
  { apply Forall_forall. intros q Hq. apply in_map_iff in Hq as (i & <- & Hi). rewrite Forall_forall in HI. specialize (HI i Hi).
    destruct (V i HI) as (la & lo & e & f & Hla & _). unfold dq. rewrite Hla. eapply valid_of_tree; eauto. }
  pose proof HT' as HT2. unfold is_tree in HT2. rewrite HT2. cbn [bind].
  eexists. split; [reflexivity|]. split; [eapply is_tree_type; exact HT'|].
  split. { unfold points_size. cbn. rewrite !zlen_map. reflexivity. }
  intros k i Hk. assert (Hi : 0 <= i < n) by (rewrite Forall_forall in HI; apply HI; eapply znth_In; eauto).
  destruct (V i Hi) as (la & lo & e & f & Hla & Hlo & H1 & H2 & H3 & H4).
  assert (Q1 : znth (t_pts T) k = Ok (position G Geodetic la lo)).
  { apply (is_tree_pts _ _ _ _ _ HT'). exists la, lo. rewrite !znth_map, Hk. unfold dq. rewrite Hla, Hlo. auto. }
  assert (Q2 : znth (t_pts (s_tree P)) i = Ok (position G Geodetic la lo)).
  { apply (is_tree_pts _ _ _ _ _ HT). exists la, lo. auto. }
  unfold points_get. cbn [s_lats s_lons s_elevs s_lafs s_tree]. rewrite !znth_map, Hk, H1, H2, H3, H4, Q1, Q2.
  unfold dq, dv. rewrite Hla, Hlo, H3, H4. cbn [bind].
  eexists. split; [|reflexivity]. f_equal. unfold points_type. cbn [s_tree].
  rewrite (is_tree_type _ _ _ _ _ HT), (is_tree_type _ _ _ _ _ HT'). reflexivity.
Qed.
Lemma in_domain_range G P g I : in_domain_indices G P g = Ok I -> Forall (fun i => 0 <= i < zlen (s_lats P)) I.
Proof.
  unfold in_domain_indices. intros H. apply bind_Ok in H as (sz & _ & H). apply bind_Ok in H as (fl & Hf & H). injection H as <-.
  apply Forall_forall. intros i Hi. apply in_map_iff in Hi as ([j b] & E & Hi). cbn in E; subst j. apply filter_In in Hi as [Hi _].
  destruct (mapM_inv _ _ _ Hf) as [L K]. apply In_znth in Hi as [k Hk].
  pose proof (znth_range _ _ _ Hk) as R. rewrite L, zlen_zrange in R. unfold points_size in *.
  destruct (K k k) as (c & Hc & Hb). { rewrite znth_zrange by lia. f_equal; lia. }
  rewrite Hk in Hc. injection Hc as <-. apply bind_Ok in Hb as (la & Hla & Hb). apply bind_Ok in Hb as (lo & _ & Hb).
  apply bind_Ok in Hb as (bx & _ & Hb). injection Hb as <- _. eapply znth_range; eauto.
Qed.
Lemma in_domain_subset G P g I : in_domain_indices G P g = Ok I -> in_domain G P g = points_subset G P I.
Proof.
  intros H. unfold in_domain, points_subset. rewrite H. cbn [bind]. apply in_domain_range in H.
  f_equal. apply mapM_ext. intros i Hi. rewrite Forall_forall in H. specialize (H i Hi).
  rewrite (proj2 (Z.ltb_ge i 0)), (proj2 (Z.leb_gt _ i)) by lia. reflexivity.
Qed.
Lemma c38_partial : forall G las los P, is_points G Geodetic las los P ->
  points_copy G P = Ok P /\ points_assign G P = Ok P /\
  (forall I, Forall (fun i => 0 <= i < zlen las) I ->
     exists Q, points_subset G P I = Ok Q /\ points_type Q = points_type P /\ points_size Q = zlen I /\
     forall k i, znth I k = Ok i -> exists p, points_get Q k = Ok p /\ points_get P i = Ok p) /\
  (forall g I, in_domain_indices G P g = Ok I -> in_domain G P g = points_subset G P I).
Proof.
  intros G las los P H. destruct (points_inv _ _ _ _ _ H) as (HL & E1 & E2 & HT & _).
  assert (K : points_copy G P = Ok P).
  { unfold points_copy. cbn [empty_tree t_type]. unfold is_tree in HT. rewrite E1, E2, HT. cbn [bind].
    rewrite <- E1, <- E2. destruct P; reflexivity. }
  split; [exact K|]. split; [exact K|]. split.
  - intros I HI. unfold points_type at 2. rewrite (is_tree_type _ _ _ _ _ HT). eapply subset_geodetic; eauto.
  - intros g I HI. apply in_domain_subset; exact HI.
Qed.

(** ** C39 *)
Lemma c39_refuted : exists G las los P p q, geo_ok G /\ is_points G Cartesian las los P /\ points_get P 0 = Ok p /\
  mk_point G (p_lat p) (p_lon p) (p_elev p) (p_laf p) Cartesian = Ok q /\ p_x q <> p_x p /\
  pdist2 p q <> fz 0.
Proof.
  exists G0, [qz 1], [qz 0]. eexists. eexists. eexists. split; [exact geo_ok_G0|].
  split; [exists [], []; cbn; reflexivity|]. split; [cbn; reflexivity|]. split; [cbn; reflexivity|].
  cbn. split; intros H; injection H; discriminate.
Qed.
(** Geodetic: the same; Cartesian: x and y exchanged, so distances within one kind agree *)
Lemma c39_partial : forall G las los,
  (forall P i p, is_points G Geodetic las los P -> points_get P i = Ok p ->
     mk_point G (p_lat p) (p_lon p) (p_elev p) (p_laf p) Geodetic = Ok p) /\
  (forall Y X lats lons g y x p, is_grid G Geodetic Y X lats lons g -> grid_get g y x = Ok p ->
     mk_point G (p_lat p) (p_lon p) (p_elev p) (p_laf p) Geodetic = Ok p) /\
  (forall P i j p q p' q', is_points G Cartesian las los P -> points_get P i = Ok p -> points_get P j = Ok q ->
     mk_point G (p_lat p) (p_lon p) (p_elev p) (p_laf p) Cartesian = Ok p' ->
     mk_point G (p_lat q) (p_lon q) (p_elev q) (p_laf q) Cartesian = Ok q' -> pdist2 p' q' = pdist2 p q).
Proof.
  intros G las los.
  assert (TP : forall t ls ms T la lo z i, is_tree G t ls ms T -> znth (map Fin ls) i = Ok la -> znth (map Fin ms) i = Ok lo ->
     znth (t_pts T) i = Ok z -> exists a b, la = Fin a /\ lo = Fin b /\ valid_loc t a /\ z = position G t a b).
  { intros t ls ms T la lo z i HT H1 H2 H3. rewrite znth_map in H1, H2.
    destruct (znth ls i) as [a| | |] eqn:Ha; try discriminate. destruct (znth ms i) as [b| | |] eqn:Hb; try discriminate.
    injection H1 as <-. injection H2 as <-. exists a, b. split; [reflexivity|]. split; [reflexivity|].
    split; [eapply valid_of_tree; eauto|]. apply (is_tree_pts _ _ _ _ _ HT) in H3 as (a' & b' & K1 & K2 & ->). congruence. }
  split; [|split].
  - intros P i p H Hp. destruct (points_inv _ _ _ _ _ H) as (HL & E1 & E2 & HT & _).
    unfold points_get in Hp. rewrite E1, E2 in Hp.
    apply bind_Ok in Hp as (la & Hla & Hp). apply bind_Ok in Hp as (lo & Hlo & Hp).
    apply bind_Ok in Hp as (e & He & Hp). apply bind_Ok in Hp as (f & Hf & Hp). apply bind_Ok in Hp as (z & Hz & Hp).
    injection Hp as <-. cbn [p_lat p_lon p_elev p_laf]. destruct (TP _ _ _ _ _ _ _ _ HT Hla Hlo Hz) as (a & b & -> & -> & V & ->).
    unfold mk_point. rewrite (convert_ok _ _ _ _ V). cbn [bind]. unfold points_type. rewrite (is_tree_type _ _ _ _ _ HT). reflexivity.
  - intros Y X lats lons g y x p H Hp. pose proof (is_grid_pos _ _ _ _ _ _ _ H) as [HY HX].
    destruct (is_grid_rect _ _ _ _ _ _ _ H) as [R1 R2].
    pose proof (grid_inv _ _ _ _ _ _ _ H) as (E1 & E2 & EX & HT & Re & Rf).
    unfold grid_get in Hp. rewrite E1, E2, EX in Hp.
    apply bind_Ok in Hp as (la & Hla & Hp). apply bind_Ok in Hp as (lo & Hlo & Hp).
    apply bind_Ok in Hp as (e & He & Hp). apply bind_Ok in Hp as (f & Hf & Hp). apply bind_Ok in Hp as (z & Hz & Hp).
    injection Hp as <-. cbn [p_lat p_lon p_elev p_laf].
    destruct (get2_range _ _ _ _ _ _ (rect_mapmap Fin _ _ _ R1) Hla) as [Ry Rx].
    assert (Q : forall l : list (list Qc), rect Y X l -> znth (map Fin (concat l)) (y * X + x) = get2 (mFin l) y x).
    { intros l Hl. rewrite concat_map, (znth_concat Y X) by (try (apply rect_mapmap; assumption); nia).
      rewrite lin_div, lin_mod by lia. reflexivity. }
    rewrite <- (Q lats R1) in Hla. rewrite <- (Q lons R2) in Hlo.
    destruct (TP _ _ _ _ _ _ _ _ HT Hla Hlo Hz) as (a & b & -> & -> & V & ->).
    unfold mk_point. rewrite (convert_ok _ _ _ _ V). cbn [bind]. unfold grid_type. rewrite (is_tree_type _ _ _ _ _ HT). reflexivity.
  - intros P i j p q p' q' H Hp Hq Hp' Hq'. destruct (points_inv _ _ _ _ _ H) as (HL & E1 & E2 & HT & _).
    assert (C : forall i p, points_get P i = Ok p -> exists a b, p_lat p = Fin a /\ p_lon p = Fin b /\ p_x p = Fin b /\ p_y p = Fin a /\ p_z p = Fin 0).
    { clear i p Hp Hp'. intros i p Hp. unfold points_get in Hp. rewrite E1, E2 in Hp.
      apply bind_Ok in Hp as (la & Hla & Hp). apply bind_Ok in Hp as (lo & Hlo & Hp).
      apply bind_Ok in Hp as (e & He & Hp). apply bind_Ok in Hp as (f & Hf & Hp). apply bind_Ok in Hp as (z & Hz & Hp).
      injection Hp as <-. destruct (TP _ _ _ _ _ _ _ _ HT Hla Hlo Hz) as (a & b & -> & -> & V & ->). exists a, b. cbn. auto. }
    destruct (C _ _ Hp) as (a & b & A1 & A2 & A3 & A4 & A5). destruct (C _ _ Hq) as (c & d & B1 & B2 & B3 & B4 & B5).
    cbn in Hp', Hq'. injection Hp' as <-. injection Hq' as <-. unfold pdist2. cbn [p_x p_y p_z].
    rewrite A1, A2, A3, A4, A5, B1, B2, B3, B4, B5. cbn. f_equal. change (qz 0) with 0%Qc. ring.
Qed.
