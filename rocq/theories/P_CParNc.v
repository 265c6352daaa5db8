(** Proofs about the client's NetCDF parameter files: the grid of places and the parameters of a point. *)
From Coq Require Import Ascii String.
From Verif Require Import Base ListLib M_COpt S_COpt M_CUtil S_CUtil M_CCal M_CTree S_CTree M_CDown M_CKrig M_CFile M_CNc S_CNc P_CCal P_CNc P_CNc7 M_CPar S_CPar M_CParNc S_CParNc.
Local Open Scope Z_scope.

Lemma whole_at X v idx : fits_in (map (dim_size X) (n_dims v)) idx -> znth (whole X v) (row_major (map (dim_size X) (n_dims v)) idx) = Ok (n_data v idx).
Proof. intros H. unfold whole. rewrite znth_map, indices_at by exact H. reflexivity. Qed.
Lemma first_name_ok {A} (l : list (str * A)) names a : first_of l names a -> first_name l names = Some a.
Proof. intros (b & n & c & -> & H & E). induction b as [|m b IH]; cbn [app first_name]; [rewrite E; reflexivity|]. rewrite (H m (or_introl eq_refl)). apply IH. intros; apply H; right; auto. Qed.
Lemma pn_dim_ok F given usual d : dimension_for F given usual d -> pn_dim F given usual = Ok d.
Proof.
  intros [[N E]|[-> E]]; unfold pn_dim.
  - destruct given as [|a g]; [congruence|]. cbn [str_eqb]. rewrite E. reflexivity.
  - cbn [str_eqb]. rewrite (first_name_ok _ _ _ E). reflexivity.
Qed.

Section Grid.
Variables (X : netcdf) (s : shape).
Hypotheses (W1 : d_lat s <> d_lon s) (HY : 0 < rows X s) (HX : 0 < columns X s).
Lemma pn_grid_ok v : coordinate_var s v -> exists r, pn_grid X (d_lat s) (d_lon s) v = Ok r /\ rect (rows X s) (columns X s) r /\
  forall i j, 0 <= i < rows X s -> 0 <= j < columns X s -> get2 r i j = Ok (stored s v i j 0 0).
Proof.
  intros (H1 & H2 & H3). unfold rows, columns in *. unfold pn_grid. pose proof (whole_at X v) as W. unfold stored, index_at.
  assert (E1 : (d_lat s =? d_lon s) = false) by (apply Z.eqb_neq; auto). assert (E2 : (d_lon s =? d_lat s) = false) by (apply Z.eqb_neq; auto).
  assert (C : n_dims v = [d_lat s] \/ n_dims v = [d_lon s] \/ n_dims v = [d_lat s; d_lon s] \/ n_dims v = [d_lon s; d_lat s]).
  { destruct (n_dims v) as [|a [|b [|c l]]]; [congruence| | |].
    - destruct (H3 a) as [->| ->]; cbn; auto.
    - inversion H2 as [|? ? N1 N2]; subst. destruct (H3 a) as [->| ->]; cbn; auto; destruct (H3 b) as [->| ->]; cbn; auto; exfalso; apply N1; left; auto.
    - exfalso. inversion H2 as [|? ? N1 N2]; subst. inversion N2 as [|? ? N3 N4]; subst. destruct (H3 a) as [->| ->]; cbn; auto; destruct (H3 b) as [->| ->]; cbn; auto; destruct (H3 c) as [->| ->]; cbn; auto; cbn in *; tauto. }
  assert (F1 : forall n i, 0 <= i < n -> fits_in [n] [i]) by (intros; repeat constructor; lia). assert (F2 : forall n m i j, 0 <= i < n -> 0 <= j < m -> fits_in [n; m] [i; j]) by (intros; repeat constructor; lia).
  destruct C as [E|[E|[E|E]]]; rewrite E in *; cbn [map] in *.
  - rewrite Z.eqb_refl. apply tab2_table; try lia. intros i j Hi Hj. specialize (W [i] (F1 _ _ Hi)). cbn [row_major product] in W. rewrite <- W. f_equal. lia.
  - rewrite E2, Z.eqb_refl. apply tab2_table; try lia. intros i j Hi Hj. specialize (W [j] (F1 _ _ Hj)). cbn [row_major product] in W. rewrite <- W. f_equal. lia.
  - assert (EL : last_of (d_lat s) [d_lat s; d_lon s] = 0). { unfold last_of. change (combine (zrange 0 (zlen [d_lat s; d_lon s])) [d_lat s; d_lon s]) with [(0, d_lat s); (1, d_lon s)]. cbn [fold_left]. rewrite ?Z.eqb_refl, ?E2. reflexivity. }
    rewrite EL. change (combine (zrange 0 (zlen [d_lat s; d_lon s])) [d_lat s; d_lon s]) with [(0, d_lat s); (1, d_lon s)]. cbn [fold_left]. rewrite ?Z.eqb_refl, ?E2. unfold ivalid. cbn [Z.eqb negb orb map].
    rewrite ?Z.eqb_refl, ?E2. unfold whole. rewrite zlen_map, zlen_indices by (rewrite E; cbn; intros c [<-|[<-|[]]]; lia). rewrite E. cbn [map product]. rewrite Z.ltb_irrefl. cbn [Z.ltb Z.compare].
    apply tab2_table; try lia. intros i j Hi Hj. specialize (W [i; j] (F2 _ _ _ _ Hi Hj)). cbn [row_major product] in W. unfold whole in W. rewrite E in W. cbn [map] in W. rewrite <- W. f_equal. lia.
  - assert (EL : last_of (d_lat s) [d_lon s; d_lat s] = 1). { unfold last_of. change (combine (zrange 0 (zlen [d_lon s; d_lat s])) [d_lon s; d_lat s]) with [(0, d_lon s); (1, d_lat s)]. cbn [fold_left]. rewrite ?Z.eqb_refl, ?E2. reflexivity. }
    rewrite EL. change (combine (zrange 0 (zlen [d_lon s; d_lat s])) [d_lon s; d_lat s]) with [(0, d_lon s); (1, d_lat s)]. cbn [fold_left]. rewrite ?Z.eqb_refl, ?E2. unfold ivalid. cbn [Z.eqb negb orb map].
    rewrite ?Z.eqb_refl, ?E2. unfold whole. rewrite zlen_map, zlen_indices by (rewrite E; cbn; intros c [<-|[<-|[]]]; lia). rewrite E. cbn [map product]. rewrite Z.ltb_irrefl. cbn [Z.ltb Z.compare].
    apply tab2_table; try lia. intros i j Hi Hj. specialize (W [j; i] (F2 _ _ _ _ Hj Hi)). cbn [row_major product] in W. unfold whole in W. rewrite E in W. cbn [map] in W. rewrite <- W. f_equal. lia.
Qed.
End Grid.

(** positions of the dimensions *)
Definition is_lat (s : shape) (d : Z) : bool := d =? d_lat s.
Definition is_lon (s : shape) (d : Z) : bool := negb (d =? d_lat s) && (d =? d_lon s).
Definition time_dim (s : shape) : Z := match d_time s with Some d => d | None => -999 end.
Definition is_t (s : shape) (d : Z) : bool := negb (d =? d_lat s) && negb (d =? d_lon s) && (d =? time_dim s).
Definition is_c (s : shape) (d : Z) : bool := negb (d =? d_lat s) && negb (d =? d_lon s) && negb (d =? time_dim s) && (d =? d_coeff s).
Lemma pn_positions_spec s ds : let '(y, x, t, c) := pn_positions (d_lat s) (d_lon s) (time_dim s) (d_coeff s) ds in
  last_at (is_lat s) ds y /\ last_at (is_lon s) ds x /\ last_at (is_t s) ds t /\ last_at (is_c s) ds c.
Proof.
  induction ds as [|d ds IH] using rev_ind.
  - cbn. repeat split; left; (split; [auto|intros k d E; apply znth_range in E; change (zlen (@nil Z)) with 0 in E; lia]).
  - unfold pn_positions in *. rewrite combine_range, fold_left_app. cbn [fold_left]. destruct (fold_left _ (combine (zrange 0 (zlen ds)) ds) _) as [[[y x] t] c] eqn:E. destruct IH as (I1 & I2 & I3 & I4).
    pose proof (last_snoc _ _ d _ I1) as L1. pose proof (last_snoc _ _ d _ I2) as L2. pose proof (last_snoc _ _ d _ I3) as L3. pose proof (last_snoc _ _ d _ I4) as L4.
    unfold is_lat, is_lon, is_t, is_c in L1, L2, L3, L4 |- *.
    destruct (d =? d_lat s); cbn [negb andb] in *; [auto|]. destruct (d =? d_lon s); cbn [negb andb] in *; [auto|]. destruct (d =? time_dim s); cbn [negb andb] in *; [auto|]. destruct (d =? d_coeff s); cbn [negb andb] in *; auto.
Qed.
Lemma last_there_valid p ds a d : last_at p ds a -> In d ds -> p d = true -> ivalid a = true.
Proof.
  intros [[-> H]|(d0 & E & _)] Hd Hp.
  - apply In_znth in Hd as [k Hk]. rewrite (H k d Hk) in Hp. discriminate.
  - apply znth_range in E. unfold ivalid. apply negb_true_iff, Z.eqb_neq. lia.
Qed.
Lemma zset_app_l {A} (a r : list A) p x a' : zset a p x = Ok a' -> zset (a ++ r) p x = Ok (a' ++ r).
Proof.
  intros H. apply zset_inv in H as [R ->]. rewrite zset_Ok by (rewrite zlen_app; pose proof (zlen_nonneg r); lia). f_equal.
  assert (L : (Z.to_nat p < length a)%nat) by (unfold zlen in *; lia). clear - L. revert L. generalize (Z.to_nat p). induction a as [|b a IH]; intros [|n] L; cbn in *; try lia; auto. rewrite IH by lia. reflexivity.
Qed.
Lemma set_if_app p i a r a' : set_if p i a = Ok a' -> set_if p i (a ++ r) = Ok (a' ++ r).
Proof. unfold set_if. destruct (ivalid p); [apply zset_app_l|]. intros E. injection E as ->. reflexivity. Qed.
Lemma nc_index_app count idx r : zlen count = zlen idx -> nc_index count (idx ++ r) = Ok (row_major count idx).
Proof.
  intros H. rewrite <- (nc_index_ok count idx H). unfold nc_index. f_equal.
  assert (E : forall l st, (forall k, In k l -> 0 <= k < zlen idx) ->
    foldM (fun st k => let '(i, s0) := st in j <- znth (idx ++ r) k ;; c <- znth count k ;; Ok (i + j * s0, s0 * c)) st l = foldM (fun st k => let '(i, s0) := st in j <- znth idx k ;; c <- znth count k ;; Ok (i + j * s0, s0 * c)) st l).
  { induction l as [|k l IH]; intros [i s0] Hl; cbn [foldM]; [reflexivity|]. rewrite znth_app_l by (specialize (Hl k (or_introl eq_refl)); lia). destruct (znth idx k); cbn [bind]; auto. destruct (znth count k); cbn [bind]; auto. apply IH. intros; apply Hl; right; auto. }
  apply E. intros k Hk. apply in_rev in Hk. apply in_zrange in Hk. lia.
Qed.

Lemma zeros_four (l : list Z) : zlen l <= 4 -> init1 4 0 = map (fun _ => 0) l ++ init1 (4 - zlen l) 0.
Proof. intros H. destruct l as [|? [|? [|? [|? [|? l]]]]]; try reflexivity. rewrite !zlen_cons in H. pose proof (zlen_nonneg l). lia. Qed.
Section Parameters.
Variables (X : netcdf) (s : shape).
Hypothesis W : well_shaped X s.
Let ds := n_dims (v_par s).
Let sizes := map (dim_size X) ds.
Lemma unique_dim (p : Z -> bool) (e : Z) : (forall d, p d = true -> d = e) -> forall k k' d d', znth ds k = Ok d -> znth ds k' = Ok d' -> p d = true -> p d' = true -> k = k'.
Proof. intros H k k' d d' E E' P P'. apply H in P. apply H in P'. subst. eapply NoDup_znth; eauto. apply W. Qed.
Lemma pn_set_ok py px pt pc i j t : pn_positions (d_lat s) (d_lon s) (time_dim s) (d_coeff s) ds = (py, px, pt, pc) -> inside X s i j -> 0 <= t < times_of X s ->
  ivalid py = true /\ ivalid px = true /\ ivalid pc = true /\
  pn_set (py, px, pt, pc) sizes (map (fun a => if veqb a (fill_of (v_par s)) then CMV else a) (whole X (v_par s))) (coefficients X s) i j t = Ok (set_at X s i j t).
Proof.
  intros EP [Hi Hj] Ht. pose proof (pn_positions_spec s ds) as P. rewrite EP in P. destruct P as (P1 & P2 & P3 & P4).
  destruct W as (W1 & W2 & W3 & W4 & _ & _ & _ & W5 & W6 & W7 & W8 & W9 & W10 & W11). fold ds in W5, W6, W7, W8, W9, W10.
  assert (W2' : d_coeff s <> time_dim s). { unfold time_dim. destruct (d_time s) as [d|] eqn:E; [destruct (W4 d eq_refl) as (_ & _ & H & _); congruence|]. destruct (W10 _ W8). lia. }
  assert (T1 : forall d, is_lat s d = true -> d = d_lat s) by (unfold is_lat; intros; lia).
  assert (T2 : forall d, is_lon s d = true -> d = d_lon s) by (unfold is_lon; intros; lia).
  assert (T3 : forall d, is_t s d = true -> d = time_dim s) by (unfold is_t; intros; lia).
  assert (T4 : forall d, is_c s d = true -> d = d_coeff s) by (unfold is_c; intros; lia).
  assert (V1 : ivalid py = true) by (apply (last_there_valid _ _ _ (d_lat s) P1 W6); unfold is_lat; lia).
  assert (V2 : ivalid px = true) by (apply (last_there_valid _ _ _ (d_lon s) P2 W7); unfold is_lon; lia).
  assert (V4 : ivalid pc = true) by (apply (last_there_valid _ _ _ (d_coeff s) P4 W8); unfold is_c; lia).
  split; [auto|]. split; [auto|]. split; [auto|]. unfold pn_set, set_at. apply mapM_ok. intros c Hc. apply in_zrange in Hc.
  set (r := init1 (4 - zlen ds) 0).
  assert (E0 : init1 4 0 = map (fun _ => 0) ds ++ r) by (apply zeros_four; exact W9).
  pose proof (set_if_map _ _ ds (fun _ => 0) i P1 (unique_dim _ _ T1)) as S1. unfold set_if in S1. rewrite V1 in S1. rewrite E0, (zset_app_l _ r _ _ _ S1). cbn [bind].
  pose proof (fun g => set_if_map _ _ ds g j P2 (unique_dim _ _ T2)) as S2. unfold set_if in S2. rewrite V2 in S2. rewrite (zset_app_l _ r _ _ _ (S2 _)). cbn [bind].
  rewrite (set_if_app _ _ _ r _ (set_if_map _ _ ds _ t P3 (unique_dim _ _ T3))). cbn [bind].
  pose proof (fun g => set_if_map _ _ ds g c P4 (unique_dim _ _ T4)) as S4. unfold set_if in S4. rewrite V4 in S4. rewrite (zset_app_l _ r _ _ _ (S4 _)). cbn [bind].
  rewrite nc_index_app by (unfold sizes; rewrite !zlen_map; reflexivity). cbn [bind]. rewrite znth_map.
  assert (EI : map (fun d => if is_c s d then c else if is_t s d then t else if is_lon s d then j else if is_lat s d then i else 0) ds = map (index_at s i j t c) ds).
  { apply map_ext_in. intros d Hd. unfold is_c, is_t, is_lon, is_lat, index_at, time_dim. destruct (d =? d_lat s); cbn [negb andb]; auto. destruct (d =? d_lon s); cbn [negb andb]; auto. destruct (W10 d Hd) as [Hd0 _].
    destruct (d_time s) as [e|]; [destruct (d =? e); cbn [negb andb]; auto|]. replace (d =? -999) with false by lia. cbn [negb andb]. reflexivity. }
  rewrite EI. pose proof (whole_at X (v_par s) (map (index_at s i j t c) ds)) as WA. change (map (dim_size X) (n_dims (v_par s))) with sizes in WA. unfold sizes in *. rewrite WA.
  - reflexivity.
  - unfold fits_in. clear - W10 Hi Hj Ht Hc. clearbody ds. revert W10. induction ds as [|d l IH]; intros H; cbn [map]; constructor; [|apply IH; intros; apply H; right; auto].
    destruct (H d (or_introl eq_refl)) as [_ Hd]. unfold index_at, rows, columns, times_of, coefficients in *. destruct (Z.eqb_spec d (d_lat s)) as [->|]; [lia|]. destruct (Z.eqb_spec d (d_lon s)) as [->|]; [lia|]. destruct (d_time s) as [e|]; [destruct (Z.eqb_spec d e) as [->|]; [lia|]|]; destruct (Z.eqb_spec d (d_coeff s)) as [->|]; lia.
Qed.
End Parameters.
