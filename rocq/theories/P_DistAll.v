(** Proofs for the distance() overloads. *)
From Coq Require Import Reals Lra Lia.
From Verif Require Import Base ListLib RBase M_Geo M_Near M_Dist S_Geo S_Near S_Dist P_Dist P_RBase P_Geo P_Neighbours P_Grid P_Points P_Near.
Local Open Scope Z_scope.

Lemma ctype_eqb_refl t : ctype_eqb t t = true. Proof. destruct t; reflexivity. Qed.
Lemma ctype_eqb_neq a b : a <> b -> ctype_eqb a b = false. Proof. destruct a, b; cbn; congruence. Qed.
Lemma max_dist_spec (ds : list R) : exists d, max_dist (map RF ds) = RF d /\ (0 <= d)%R /\ (forall x, In x ds -> (x <= d)%R) /\
  (d = 0%R \/ In d ds).
Proof.
  unfold max_dist, rz.
  assert (K : forall (ds : list R) (m : R), exists d, fold_left (fun m d => if rltb m d then d else m) (map RF ds) (RF m) = RF d /\ (m <= d)%R /\
     (forall x, In x ds -> (x <= d)%R) /\ (d = m \/ In d ds)).
  { clear ds. induction ds as [|a ds IH]; intros m; cbn [map fold_left].
    - exists m. repeat split; [lra|intros x []|left; reflexivity].
    - cbn [rltb]. destruct (Rltb m a) eqn:E.
      + apply Rltb_spec in E. destruct (IH a) as (d & -> & A & B & C). exists d. repeat split; [lra| |].
        * intros x [<-|H]; [lra|auto].
        * right. destruct C as [->|C]; [left; reflexivity|right; exact C].
      + assert (a <= m)%R. { destruct (Rle_or_lt a m) as [|L]; [assumption|]. rewrite Rltb_t in E by assumption. discriminate. }
        destruct (IH m) as (d & -> & A & B & C). exists d. repeat split; [lra| |].
        * intros x [<-|H']; [lra|auto].
        * destruct C as [->|C]; [left; reflexivity|right; right; exact C]. }
  destruct (K ds 0%R) as (d & E & A & B & C). exists d. auto.
Qed.
(** the loop over neighbours, whatever their index type *)
Lemma knn_loop {I} (at_ : I -> xyz -> Prop) (coords : I -> Qc -> Qc -> Prop) (p : xyz) (t : ctype) (la lo : Qc) (num : Z) (S : list I)
   (get : I -> res (val * val)) (F : val -> val -> rv) :
  are_closest at_ p num S ->
  (forall i, In i S -> exists la' lo', coords i la' lo' /\ get i = Ok (Fin la', Fin lo')) ->
  (forall i a b a' b', coords i a b -> coords i a' b' -> a = a' /\ b = b') ->
  (forall la' lo', exists d, F (Fin la') (Fin lo') = RF d /\ is_distance t (qr la) (qr lo) (qr la') (qr lo') d) ->
  exists r, (ds <- mapM (fun i => '(ila, ilo) <- get i ;;
               Ok (F ila ilo)) S ;; Ok (max_dist ds)) = Ok r /\
            knn_distance at_ coords p t la lo num r.
Proof.
  intros HS HG HU HF.
  assert (exists ds, mapM (fun i => '(ila, ilo) <- get i ;; Ok (F ila ilo)) S = Ok (map RF ds) /\
     Forall2 (dist_to coords t la lo) S ds) as (ds & -> & H2).
  { clear HS. induction S as [|i S IH]; [exists []; split; [reflexivity|constructor]|].
    destruct IH as (ds & E & H2); [intros j Hj; apply HG; right; exact Hj|].
    destruct (HG i) as (a & b & Hc & Eg); [left; reflexivity|]. destruct (HF a b) as (d & Ed & Hd).
    exists (d :: ds). cbn [mapM map]. rewrite Eg. cbn [bind]. rewrite E, Ed. split; [reflexivity|]. constructor; [|exact H2]. exists a, b. auto. }
  cbn [bind]. destruct (max_dist_spec ds) as (d & -> & Hp & Hle & Hin). eexists. split; [reflexivity|]. exists S, d.
  split; [exact HS|]. split; [reflexivity|].
  assert (DU : forall i x y, dist_to coords t la lo i x -> dist_to coords t la lo i y -> x = y).
  { intros i x y (a & b & C1 & D1) (a' & b' & C2 & D2). destruct (HU _ _ _ _ _ C1 C2) as [-> ->]. eapply dist_unique; eauto. }
  assert (DP : forall i x, dist_to coords t la lo i x -> (0 <= x)%R).
  { intros i x (a & b & _ & D1). eapply dist_nonneg; eauto. }
  split.
  - intros i x Hi Hx. assert (exists y, In y ds /\ dist_to coords t la lo i y) as (y & Hy & Dy).
    { clear - H2 Hi. induction H2 as [|j y l l' Hj H2 IH]; [destruct Hi|]. destruct Hi as [->|Hi]; [exists y; split; [left; reflexivity|exact Hj]|].
      destruct (IH Hi) as (z & Hz & Dz). exists z. split; [right; exact Hz|exact Dz]. }
    rewrite (DU _ _ _ Hx Dy). auto.
  - destruct S as [|i0 S0]; [left|right].
    + inversion H2; subst. split; [reflexivity|]. destruct Hin as [H|[]]. exact H.
    + assert (exists y, In y ds /\ y = d) as (y & Hy & ->).
      { destruct Hin as [Hz|Hin]; [|exists d; auto]. inversion H2 as [|? y0 ? ? D0 H2' E1 E2]; subst. exists y0. split; [left; reflexivity|].
        pose proof (DP _ _ D0). pose proof (Hle y0 ltac:(left; reflexivity)). lra. }
      clear - H2 Hy. induction H2 as [|j y l l' Hj H2 IH]; [destruct Hy|]. destruct Hy as [->|Hy].
      * exists j. split; [left; reflexivity|exact Hj].
      * destruct (IH Hy) as (k & Hk & Dk). exists k. split; [right; exact Hk|exact Dk].
Qed.

Lemma tree_closest G t las los T la lo num : geo_ok G -> is_tree G t las los T -> valid_loc t la -> 1 <= num ->
  exists I, get_closest_neighbours G T (Fin la) (Fin lo) num true = Ok I /\ are_closest (point_at G t las los) (position G t la lo) num I.
Proof.
  intros HG HT HV Hn. destruct (c37_tree G t las los T la lo num true HG HT HV Hn) as (I & E & ND & HL & H1 & H2 & H3).
  exists I. split; [exact E|]. split; [exact ND|]. split; [exact HL|]. split; [|split].
  - intros i Hi. destruct (H1 i Hi) as (q & Hq & _). eauto.
  - intros L i q Hq. eapply H2; eauto. left; reflexivity.
  - intros i j qi qj Hi Hqi Hqj Hj. eapply H3; eauto. left; reflexivity.
Qed.
Lemma grid_closest_ok G t Y X lats lons g la lo num : geo_ok G -> is_grid G t Y X lats lons g -> valid_loc t la -> 1 <= num ->
  exists I, grid_closest G g (Fin la) (Fin lo) num true = Ok I /\ are_closest (grid_at' G t lats lons) (position G t la lo) num I.
Proof.
  intros HG H HV Hn. pose proof (is_grid_pos _ _ _ _ _ _ _ H) as [HY HX].
  pose proof (grid_inv _ _ _ _ _ _ _ H) as (_ & _ & EX & HT & _).
  destruct (tree_closest G t _ _ _ la lo num HG HT HV Hn) as (I & HI & ND & HL & H1 & H2 & H3).
  unfold grid_closest. rewrite HI. cbn [bind].
  assert (HI0 : forall k, In k I -> 0 <= k < Y * X).
  { intros k Hk. apply H1 in Hk as (q & Hq). apply (grid_point_at _ _ _ _ _ _ _ _ _ H) in Hq. tauto. }
  rewrite (get_indices_all_ok _ _ _ _ _ _ _ _ H) by (apply Forall_forall; intros k Hk; apply HI0 in Hk; lia).
  eexists. split; [reflexivity|].
  assert (LIN : forall y x q, grid_at' G t lats lons (y, x) q -> 0 <= y < Y /\ 0 <= x < X /\ point_at G t (concat lats) (concat lons) (y * X + x) q).
  { intros y x q Hq. apply (grid_at_lin _ _ _ _ _ _ _ _ _ _ H) in Hq. exact Hq. }
  assert (INM : forall y x, 0 <= y < Y -> 0 <= x < X -> In (y, x) (map (fun k => (k / X, k mod X)) I) <-> In (y * X + x) I).
  { intros y x Ry Rx. rewrite in_map_iff. split.
    - intros (k & E & Hk). replace (y * X + x) with k; [exact Hk|]. injection E as <- <-. rewrite (Z.div_mod k X) at 1 by lia. lia.
    - intros Hk. exists (y * X + x). rewrite lin_div, lin_mod by lia. auto. }
  split; [|split; [|split; [|split]]].
  - clear - ND HX. induction ND as [|a l Ha ND IH]; cbn; constructor; [|exact IH].
    intros K. apply in_map_iff in K as (b & E & Hb). apply (divmod_inj X) in E; [|lia]. congruence.
  - rewrite zlen_map. exact HL.
  - intros c Hc. apply in_map_iff in Hc as (k & <- & Hk). destruct (H1 k Hk) as (q & Hq). exists q.
    apply (grid_point_at _ _ _ _ _ _ _ _ _ H) in Hq. apply Hq.
  - rewrite zlen_map. intros L [y x] q Hq. apply LIN in Hq as (Ry & Rx & Hq). apply INM; auto. eapply H2; eauto.
  - intros [y x] [y' x'] qi qj Hi Hqi Hqj Hj. apply LIN in Hqi as (Ry & Rx & Hqi). apply LIN in Hqj as (Ry' & Rx' & Hqj).
    rewrite INM in Hi, Hj by assumption. eapply H3; eauto.
Qed.
Lemma grid_coords_fun lats lons i a b a' b' : grid_coords lats lons i a b -> grid_coords lats lons i a' b' -> a = a' /\ b = b'.
Proof. intros [A B] [A' B']. split; congruence. Qed.
Lemma point_coords_fun las los i a b a' b' : point_coords las los i a b -> point_coords las los i a' b' -> a = a' /\ b = b'.
Proof. intros [A B] [A' B']. split; congruence. Qed.
Lemma calc1 t la lo la' lo' : exists d, calc_distance (v2r (Fin la)) (v2r (Fin lo)) (v2r (Fin la')) (v2r (Fin lo')) t = RF d /\ is_distance t (qr la) (qr lo) (qr la') (qr lo') d.
Proof. apply calc_ok. Qed.
Lemma calc2 t la lo la' lo' : exists d, calc_distance (v2r (Fin la')) (v2r (Fin lo')) (v2r (Fin la)) (v2r (Fin lo)) t = RF d /\ is_distance t (qr la) (qr lo) (qr la') (qr lo') d.
Proof. destruct (calc_ok t (qr la') (qr lo') (qr la) (qr lo)) as (d & E & H). exists d. split; [exact E|]. apply dist_sym. exact H. Qed.
Lemma grid_type_ok G t Y X lats lons g : is_grid G t Y X lats lons g -> grid_type g = t.
Proof. intros H. destruct (grid_inv _ _ _ _ _ _ _ H) as (_ & _ & _ & HT & _). unfold grid_type. eapply is_tree_type; eauto. Qed.
Lemma points_type_ok G t las los P : is_points G t las los P -> points_type P = t.
Proof. intros H. destruct (points_inv _ _ _ _ _ H) as (_ & _ & _ & HT & _). unfold points_type. eapply is_tree_type; eauto. Qed.
Lemma points_valid G t las los P i la : is_points G t las los P -> znth las i = Ok la -> valid_loc t la.
Proof. intros H Hi. destruct (points_inv _ _ _ _ _ H) as (_ & _ & _ & HT & _). eapply valid_of_tree; eauto. Qed.
Lemma grid_valid G t Y X lats lons g i j la : is_grid G t Y X lats lons g -> get2 lats i j = Ok la -> valid_loc t la.
Proof.
  intros H Hi. pose proof (is_grid_pos _ _ _ _ _ _ _ H) as [HY HX]. destruct (is_grid_rect _ _ _ _ _ _ _ H) as [R1 R2].
  destruct (grid_inv _ _ _ _ _ _ _ H) as (_ & _ & _ & HT & _). destruct (get2_range _ _ _ _ _ _ R1 Hi) as [Ri Rj].
  apply (valid_of_tree _ _ _ _ _ HT (i * X + j)). rewrite (znth_concat Y X) by (assumption || nia). rewrite lin_div, lin_mod by lia. exact Hi.
Qed.
Lemma from_grid G t Y X lats lons g la lo num F : geo_ok G -> is_grid G t Y X lats lons g -> valid_loc t la -> 1 <= num ->
  (forall la' lo', exists d, F (Fin la') (Fin lo') = RF d /\ is_distance t (qr la) (qr lo) (qr la') (qr lo') d) ->
  exists r, (I <- grid_closest G g (Fin la) (Fin lo) num true ;;
    ds <- mapM (fun c : Z * Z => '(ila, ilo) <- out_loc g (fst c) (snd c) ;; Ok (F ila ilo)) I ;; Ok (max_dist ds)) = Ok r /\
    knn_distance (grid_at' G t lats lons) (grid_coords lats lons) (position G t la lo) t la lo num r.
Proof.
  intros HG H HV Hn HF. destruct (grid_closest_ok _ _ _ _ _ _ _ la lo num HG H HV Hn) as (I & -> & HC). cbn [bind].
  destruct (grid_inv _ _ _ _ _ _ _ H) as (E1 & E2 & _).
  apply (knn_loop _ (grid_coords lats lons) _ t la lo num I (fun c => out_loc g (fst c) (snd c)) F HC).
  - intros [y x] Hc. destruct HC as (_ & _ & HA & _). destruct (HA _ Hc) as (q & a & b & Ha & Hb & _). exists a, b. split; [split; assumption|].
    cbn [fst snd] in *. unfold out_loc. rewrite E1, E2, !get2_mapmap, Ha, Hb. reflexivity.
  - apply grid_coords_fun.
  - exact HF.
Qed.
Lemma from_points G t las los P la lo num F : geo_ok G -> is_points G t las los P -> valid_loc t la -> 1 <= num ->
  (forall la' lo', exists d, F (Fin la') (Fin lo') = RF d /\ is_distance t (qr la) (qr lo) (qr la') (qr lo') d) ->
  exists r, (I <- get_closest_neighbours G (s_tree P) (Fin la) (Fin lo) num true ;;
    ds <- mapM (fun k : Z => '(ila, ilo) <- pt_loc P k ;; Ok (F ila ilo)) I ;; Ok (max_dist ds)) = Ok r /\
    knn_distance (point_at G t las los) (point_coords las los) (position G t la lo) t la lo num r.
Proof.
  intros HG H HV Hn HF. destruct (points_inv _ _ _ _ _ H) as (_ & E1 & E2 & HT & _).
  destruct (tree_closest _ _ _ _ _ la lo num HG HT HV Hn) as (I & -> & HC). cbn [bind].
  apply (knn_loop _ (point_coords las los) _ t la lo num I (pt_loc P) F HC).
  - intros k Hc. destruct HC as (_ & _ & HA & _). destruct (HA _ Hc) as (q & a & b & Ha & Hb & _). exists a, b. split; [split; assumption|].
    unfold pt_loc. rewrite E1, E2, !znth_map, Ha, Hb. reflexivity.
  - apply point_coords_fun.
  - exact HF.
Qed.
Lemma c94_gp : forall G t Y X lats lons g las los P num, geo_ok G -> is_grid G t Y X lats lons g -> is_points G t las los P -> 1 <= num ->
  exists out, distance_gp G g P num = Ok out /\ zlen out = zlen las /\
  forall i la lo, znth las i = Ok la -> znth los i = Ok lo -> exists r, znth out i = Ok r /\
    knn_distance (grid_at' G t lats lons) (grid_coords lats lons) (position G t la lo) t la lo num r.
Proof.
  intros G t Y X lats lons g las los P num HG Hg HP Hn. unfold distance_gp.
  rewrite (grid_type_ok _ _ _ _ _ _ _ Hg), (points_type_ok _ _ _ _ _ HP), ctype_eqb_refl. cbn [negb].
  assert (K : forall i la lo, znth las i = Ok la -> exists r, _ = Ok r /\ _) by (intros i la lo Hla;
    exact (from_grid G t Y X lats lons g la lo num (fun a b => calc_distance (v2r (Fin la)) (v2r (Fin lo)) (v2r a) (v2r b) t) HG Hg (points_valid _ _ _ _ _ _ _ HP Hla) Hn (calc1 t la lo))).
  destruct (out_points G t las los P (fun lat lon => I <- grid_closest G g lat lon num true ;;
    ds <- mapM (fun c : Z * Z => '(ila, ilo) <- out_loc g (fst c) (snd c) ;; Ok (calc_distance (v2r lat) (v2r lon) (v2r ila) (v2r ilo) t)) I ;; Ok (max_dist ds)) (rz 0) HP) as (out & -> & HL & K2).
  { intros i la lo Hla Hlo. destruct (K i la lo Hla) as (r & E & _). exists r. exact E. }
  exists out. split; [reflexivity|]. split; [exact HL|]. intros i la lo Hla Hlo. destruct (K2 i la lo Hla Hlo) as (r & E & Hr).
  destruct (K i la lo Hla) as (r' & E' & H'). exists r. split; [exact Hr|]. cbn beta in E, E'. congruence.
Qed.
Lemma c94_gg : forall G t Y X lats lons g Y' X' lats' lons' og num, geo_ok G -> is_grid G t Y X lats lons g -> is_grid G t Y' X' lats' lons' og -> 1 <= num ->
  exists out, distance_gg G g og num = Ok out /\ rect Y' X' out /\
  forall i j la lo, get2 lats' i j = Ok la -> get2 lons' i j = Ok lo -> exists r, get2 out i j = Ok r /\
    knn_distance (grid_at' G t lats lons) (grid_coords lats lons) (position G t la lo) t la lo num r.
Proof.
  intros G t Y X lats lons g Y' X' lats' lons' og num HG Hg HO Hn. unfold distance_gg.
  rewrite (grid_type_ok _ _ _ _ _ _ _ Hg), (grid_type_ok _ _ _ _ _ _ _ HO), ctype_eqb_refl. cbn [negb].
  rewrite (grid_size_ok _ _ _ _ _ _ _ HO). cbn [bind].
  assert (K : forall i j la lo, get2 lats' i j = Ok la -> exists r, _ = Ok r /\ _) by (intros i j la lo Hla;
    exact (from_grid G t Y X lats lons g la lo num (fun a b => calc_distance (v2r a) (v2r b) (v2r (Fin la)) (v2r (Fin lo)) t) HG Hg (grid_valid _ _ _ _ _ _ _ _ _ _ HO Hla) Hn (calc2 t la lo))).
  destruct (out_grid G t Y' X' lats' lons' og (fun lat lon => I <- grid_closest G g lat lon num true ;;
    ds <- mapM (fun c : Z * Z => '(ila, ilo) <- out_loc g (fst c) (snd c) ;; Ok (calc_distance (v2r ila) (v2r ilo) (v2r lat) (v2r lon) t)) I ;; Ok (max_dist ds)) (rz 0) HO) as (out & -> & HL & K2).
  { intros i j la lo Hla Hlo. destruct (K i j la lo Hla) as (r & E & _). exists r. exact E. }
  exists out. split; [reflexivity|]. split; [exact HL|]. intros i j la lo Hla Hlo. destruct (K2 i j la lo Hla Hlo) as (r & E & Hr).
  destruct (K i j la lo Hla) as (r' & E' & H'). exists r. split; [exact Hr|]. cbn beta in E, E'. congruence.
Qed.
Lemma c94_pg : forall G t las los P Y' X' lats' lons' og num, geo_ok G -> is_points G t las los P -> is_grid G t Y' X' lats' lons' og -> 1 <= num ->
  exists out, distance_pg G P og num = Ok out /\ rect Y' X' out /\
  forall i j la lo, get2 lats' i j = Ok la -> get2 lons' i j = Ok lo -> exists r, get2 out i j = Ok r /\
    knn_distance (point_at G t las los) (point_coords las los) (position G t la lo) t la lo num r.
Proof.
  intros G t las los P Y' X' lats' lons' og num HG HP HO Hn. unfold distance_pg.
  rewrite (points_type_ok _ _ _ _ _ HP), (grid_type_ok _ _ _ _ _ _ _ HO), ctype_eqb_refl. cbn [negb].
  rewrite (grid_size_ok _ _ _ _ _ _ _ HO). cbn [bind].
  assert (K : forall i j la lo, get2 lats' i j = Ok la -> exists r, _ = Ok r /\ _) by (intros i j la lo Hla;
    exact (from_points G t las los P la lo num (fun a b => calc_distance (v2r a) (v2r b) (v2r (Fin la)) (v2r (Fin lo)) t) HG HP (grid_valid _ _ _ _ _ _ _ _ _ _ HO Hla) Hn (calc2 t la lo))).
  destruct (out_grid G t Y' X' lats' lons' og (fun lat lon => I <- get_closest_neighbours G (s_tree P) lat lon num true ;;
    ds <- mapM (fun k : Z => '(ila, ilo) <- pt_loc P k ;; Ok (calc_distance (v2r ila) (v2r ilo) (v2r lat) (v2r lon) t)) I ;; Ok (max_dist ds)) (rz 0) HO) as (out & -> & HL & K2).
  { intros i j la lo Hla Hlo. destruct (K i j la lo Hla) as (r & E & _). exists r. exact E. }
  exists out. split; [reflexivity|]. split; [exact HL|]. intros i j la lo Hla Hlo. destruct (K2 i j la lo Hla Hlo) as (r & E & Hr).
  destruct (K i j la lo Hla) as (r' & E' & H'). exists r. split; [exact Hr|]. cbn beta in E, E'. congruence.
Qed.
Lemma c94_pp : forall G t las los P las' los' op num, geo_ok G -> is_points G t las los P -> is_points G t las' los' op -> 1 <= num ->
  exists out, distance_pp G P op num = Ok out /\ zlen out = zlen las' /\
  forall i la lo, znth las' i = Ok la -> znth los' i = Ok lo -> exists r, znth out i = Ok r /\
    knn_distance (point_at G t las los) (point_coords las los) (position G t la lo) t la lo num r.
Proof.
  intros G t las los P las' los' op num HG HP HO Hn. unfold distance_pp.
  rewrite (points_type_ok _ _ _ _ _ HP), (points_type_ok _ _ _ _ _ HO), ctype_eqb_refl. cbn [negb].
  assert (K : forall i la lo, znth las' i = Ok la -> exists r, _ = Ok r /\ _) by (intros i la lo Hla;
    exact (from_points G t las los P la lo num (fun a b => calc_distance (v2r (Fin la)) (v2r (Fin lo)) (v2r a) (v2r b) t) HG HP (points_valid _ _ _ _ _ _ _ HO Hla) Hn (calc1 t la lo))).
  destruct (out_points G t las' los' op (fun lat lon => I <- get_closest_neighbours G (s_tree P) lat lon num true ;;
    ds <- mapM (fun k : Z => '(ila, ilo) <- pt_loc P k ;; Ok (calc_distance (v2r lat) (v2r lon) (v2r ila) (v2r ilo) t)) I ;; Ok (max_dist ds)) (rz 0) HO) as (out & -> & HL & K2).
  { intros i la lo Hla Hlo. destruct (K i la lo Hla) as (r & E & _). exists r. exact E. }
  exists out. split; [reflexivity|]. split; [exact HL|]. intros i la lo Hla Hlo. destruct (K2 i la lo Hla Hlo) as (r & E & Hr).
  destruct (K i la lo Hla) as (r' & E' & H'). exists r. split; [exact Hr|]. cbn beta in E, E'. congruence.
Qed.
Lemma c94_types : forall G num, 
  (forall g P, grid_type g <> points_type P -> distance_gp G g P num = Throw InvalidArgument /\ distance_pg G P g num = Throw InvalidArgument) /\
  (forall g g', grid_type g <> grid_type g' -> distance_gg G g g' num = Throw InvalidArgument) /\
  (forall P P', points_type P <> points_type P' -> distance_pp G P P' num = Throw InvalidArgument).
Proof.
  intros G num. unfold distance_gp, distance_pg, distance_gg, distance_pp. repeat split; intros.
  all: rewrite ctype_eqb_neq by congruence; reflexivity.
Qed.
(** ** the plane: nearest means nearest in distance, so the answer is the num-th smallest distance *)
Lemma sqdist_plane G la lo la' lo' : qr (sqdist (position G Cartesian la lo) (position G Cartesian la' lo')) = plane2 (qr la) (qr lo) (qr la') (qr lo').
Proof. unfold sqdist, position, plane2. cbn [px py pz]. rewrite !qr_add, !qr_mul, !qr_sub, qr_0. ring. Qed.
Lemma plane_le a b c d e f x y : (is_distance Cartesian a b c d x -> is_distance Cartesian a b e f y -> plane2 a b c d <= plane2 a b e f -> x <= y)%R.
Proof. intros [A B] [A' B'] H. rewrite <- B, <- B' in H. destruct (Rle_or_lt x y) as [|L]; [assumption|]. exfalso. nra. Qed.
Section Plane.
Context {I : Type} (G : geo) (at_ : I -> xyz -> Prop) (coords : I -> Qc -> Qc -> Prop) (la lo : Qc).
Hypothesis Hat : forall i q, at_ i q <-> exists a b, coords i a b /\ q = position G Cartesian a b.
Hypothesis Hfun : forall i a b a' b', coords i a b -> coords i a' b' -> a = a' /\ b = b'.
Hypothesis Idec : forall i j : I, {i = j} + {i <> j}.
Notation p := (position G Cartesian la lo).
Notation D := (dist_to coords Cartesian la lo).
Lemma knn_others num S : are_closest at_ p num S -> forall i j x y, In i S -> ~ In j S -> D i x -> D j y -> (x <= y)%R.
Proof.
  intros (_ & _ & _ & _ & HC) i j x y Hi Hj (a & b & C1 & D1) (a' & b' & C2 & D2).
  apply (plane_le _ _ _ _ _ _ _ _ D1 D2).
  assert (K : (sqdist p (position G Cartesian a b) <= sqdist p (position G Cartesian a' b'))%Qc).
  { apply (HC i j); auto; apply Hat; eauto. }
  apply qr_le in K. rewrite !sqdist_plane in K. exact K.
Qed.
Lemma D_ex i : (exists q, at_ i q) -> exists x, D i x.
Proof.
  intros (q & Hq). apply Hat in Hq as (a & b & C & _). destruct (calc_ok Cartesian (qr la) (qr lo) (qr a) (qr b)) as (d & _ & Hd).
  exists d, a, b. auto.
Qed.
Lemma D_fun i x y : D i x -> D i y -> x = y.
Proof. intros (a & b & C1 & D1) (a' & b' & C2 & D2). destruct (Hfun _ _ _ _ _ C1 C2) as [-> ->]. eapply dist_unique; eauto. Qed.
Lemma D_pos i x : D i x -> (0 <= x)%R. Proof. intros (a & b & _ & D1). eapply dist_nonneg; eauto. Qed.
Lemma knn_mono num num' r r' : num <= num' -> knn_distance at_ coords p Cartesian la lo num r ->
  knn_distance at_ coords p Cartesian la lo num' r' -> rv_le r r'.
Proof.
  intros Hn (S & d & HS & -> & HM) (S' & d' & HS' & -> & HM'). exists d, d'. repeat split.
  destruct (Rle_or_lt d d') as [|L]; [assumption|exfalso].
  assert (P' : (0 <= d')%R). { destruct HM' as [_ [[_ ->]|(k & _ & Dk)]]; [lra|eapply D_pos; eauto]. }
  destruct HM as [HM1 [[_ ->]|(i & Hi & Di)]]; [lra|].
  destruct HM' as [HM1' HM2'].
  destruct (in_dec Idec i S') as [Hi'|Hi']; [pose proof (HM1' i d Hi' Di); lra|].
  assert (INC : incl S' S).
  { intros j Hj. destruct (in_dec Idec j S) as [|Hj']; [assumption|exfalso].
    destruct HS' as (_ & _ & HA' & _). destruct (D_ex j (HA' j Hj)) as (x & Dx).
    pose proof (HM1' j x Hj Dx). pose proof (knn_others num S HS i j d x Hi Hj' Di Dx). lra. }
  pose proof HS as (ND & HL & HA & _). pose proof HS' as (ND' & HL' & HA' & HF' & _).
  assert (L2 : (length (i :: S') <= length S)%nat).
  { apply NoDup_incl_length; [constructor; assumption|]. intros j [<-|Hj]; [assumption|auto]. }
  cbn in L2. destruct (HA i Hi) as (q & Hq).
  assert (~ zlen S' < num') by (intros K; apply Hi'; eapply HF'; eauto). unfold zlen in *. lia.
Qed.
(** with num = 1 the answer is the distance to the nearest location *)
Lemma knn_one r : knn_distance at_ coords p Cartesian la lo 1 r -> forall j x, D j x -> exists d, r = RF d /\ (d <= x)%R.
Proof.
  intros (S & d & HS & -> & HM1 & HM2) j x Dj. exists d. split; [reflexivity|]. destruct HM2 as [[-> ->]|(i & Hi & Di)]; [eapply D_pos; eauto|].
  destruct (in_dec Idec j S) as [Hj|Hj]; [|eapply knn_others; eauto].
  pose proof HS as (ND & HL & _). destruct S as [|a [|b S]]; [destruct Hi| |].
  - destruct Hi as [->|[]]. destruct Hj as [->|[]]. rewrite (D_fun _ _ _ Dj Di). lra.
  - exfalso. rewrite !zlen_cons in HL. pose proof (zlen_nonneg S). lia.
Qed.
End Plane.
Lemma at_grid_coords G lats lons (i : Z * Z) q : grid_at' G Cartesian lats lons i q <-> exists a b, grid_coords lats lons i a b /\ q = position G Cartesian a b.
Proof. unfold grid_at', grid_at, grid_coords. split; intros (a & b & H); exists a, b; tauto. Qed.
Lemma at_point_coords G las los i q : point_at G Cartesian las los i q <-> exists a b, point_coords las los i a b /\ q = position G Cartesian a b.
Proof. unfold point_at, point_coords. split; intros (a & b & H); exists a, b; tauto. Qed.
Lemma zz_dec (a b : Z * Z) : {a = b} + {a <> b}.
Proof. decide equality; apply Z.eq_dec. Qed.
Lemma all_le_of las los out out' (Q Q' : Qc -> Qc -> rv -> Prop) : zlen los = zlen las -> zlen out = zlen las -> zlen out' = zlen las ->
  (forall i la lo, znth las i = Ok la -> znth los i = Ok lo -> exists r, znth out i = Ok r /\ Q la lo r) ->
  (forall i la lo, znth las i = Ok la -> znth los i = Ok lo -> exists r, znth out' i = Ok r /\ Q' la lo r) ->
  (forall la lo r r', Q la lo r -> Q' la lo r' -> rv_le r r') -> all_le out out'.
Proof.
  intros L0 L1 L2 H1 H2 H3. split; [lia|]. intros i x y Hx Hy. pose proof (znth_range _ _ _ Hx).
  destruct (znth_some las i) as [la Hla]; [lia|]. destruct (znth_some los i) as [lo Hlo]; [lia|].
  destruct (H1 i la lo Hla Hlo) as (r & E & A). destruct (H2 i la lo Hla Hlo) as (r' & E' & B). assert (r = x) as -> by congruence. assert (r' = y) as -> by congruence. eapply H3; eauto.
Qed.
Lemma all_le2_of {Y X} (lats lons : list (list Qc)) out out' (Q Q' : Qc -> Qc -> rv -> Prop) : rect Y X lats -> rect Y X lons -> rect Y X out -> rect Y X out' ->
  (forall i j la lo, get2 lats i j = Ok la -> get2 lons i j = Ok lo -> exists r, get2 out i j = Ok r /\ Q la lo r) ->
  (forall i j la lo, get2 lats i j = Ok la -> get2 lons i j = Ok lo -> exists r, get2 out' i j = Ok r /\ Q' la lo r) ->
  (forall la lo r r', Q la lo r -> Q' la lo r' -> rv_le r r') -> all_le2 out out'.
Proof.
  intros L0 L1 L2 L3 H1 H2 H3 i j x y Hx Hy. destruct (get2_range _ _ _ _ _ _ L2 Hx) as [Ri Rj].
  destruct (rect_get2 _ _ _ _ _ L0 Ri Rj) as [la Hla]. destruct (rect_get2 _ _ _ _ _ L1 Ri Rj) as [lo Hlo].
  destruct (H1 i j la lo Hla Hlo) as (r & E & A). destruct (H2 i j la lo Hla Hlo) as (r' & E' & B).
  assert (r = x) as -> by congruence. assert (r' = y) as -> by congruence. eapply H3; eauto.
Qed.
Lemma c94_mono : forall G num num', geo_ok G -> 1 <= num <= num' ->
  (forall Y X lats lons g las los P, is_grid G Cartesian Y X lats lons g -> is_points G Cartesian las los P ->
     (exists a b, distance_gp G g P num = Ok a /\ distance_gp G g P num' = Ok b /\ all_le a b) /\
     (exists a b, distance_pg G P g num = Ok a /\ distance_pg G P g num' = Ok b /\ all_le2 a b)) /\
  (forall Y X lats lons g Y' X' lats' lons' g', is_grid G Cartesian Y X lats lons g -> is_grid G Cartesian Y' X' lats' lons' g' ->
     exists a b, distance_gg G g g' num = Ok a /\ distance_gg G g g' num' = Ok b /\ all_le2 a b) /\
  (forall las los P las' los' P', is_points G Cartesian las los P -> is_points G Cartesian las' los' P' ->
     exists a b, distance_pp G P P' num = Ok a /\ distance_pp G P P' num' = Ok b /\ all_le a b).
Proof.
  intros G num num' HG [H1 H2]. repeat split.
  - destruct (c94_gp G Cartesian Y X lats lons g las los P num HG) as (a & Ea & La & Ka); auto.
    destruct (c94_gp G Cartesian Y X lats lons g las los P num' HG) as (b & Eb & Lb & Kb); auto; [lia|].
    exists a, b. split; [exact Ea|]. split; [exact Eb|]. destruct (points_inv _ _ _ _ _ H0) as (HL & _).
    refine (all_le_of las los a b _ _ HL La Lb Ka Kb _). intros la lo r r'. cbn beta. exact (knn_mono G _ _ la lo (at_grid_coords G lats lons) zz_dec num num' r r' H2).
  - destruct (c94_pg G Cartesian las los P Y X lats lons g num HG) as (a & Ea & La & Ka); auto.
    destruct (c94_pg G Cartesian las los P Y X lats lons g num' HG) as (b & Eb & Lb & Kb); auto; [lia|].
    exists a, b. split; [exact Ea|]. split; [exact Eb|]. destruct (is_grid_rect _ _ _ _ _ _ _ H) as [R1 R2].
    refine (all_le2_of lats lons a b _ _ R1 R2 La Lb Ka Kb _). intros la lo r r'. cbn beta. exact (knn_mono G _ _ la lo (at_point_coords G las los) Z.eq_dec num num' r r' H2).
  - intros Y X lats lons g Y' X' lats' lons' g' H H0. destruct (c94_gg G Cartesian Y X lats lons g Y' X' lats' lons' g' num HG) as (a & Ea & La & Ka); auto.
    destruct (c94_gg G Cartesian Y X lats lons g Y' X' lats' lons' g' num' HG) as (b & Eb & Lb & Kb); auto; [lia|].
    exists a, b. split; [exact Ea|]. split; [exact Eb|]. destruct (is_grid_rect _ _ _ _ _ _ _ H0) as [R1 R2].
    refine (all_le2_of lats' lons' a b _ _ R1 R2 La Lb Ka Kb _). intros la lo r r'. cbn beta. exact (knn_mono G _ _ la lo (at_grid_coords G lats lons) zz_dec num num' r r' H2).
  - intros las los P las' los' P' H H0. destruct (c94_pp G Cartesian las los P las' los' P' num HG) as (a & Ea & La & Ka); auto.
    destruct (c94_pp G Cartesian las los P las' los' P' num' HG) as (b & Eb & Lb & Kb); auto; [lia|].
    exists a, b. split; [exact Ea|]. split; [exact Eb|]. destruct (points_inv _ _ _ _ _ H0) as (HL & _).
    refine (all_le_of las' los' a b _ _ HL La Lb Ka Kb _). intros la lo r r'. cbn beta. exact (knn_mono G _ _ la lo (at_point_coords G las los) Z.eq_dec num num' r r' H2).
Qed.
Lemma one_nearest {I} G (at_ : I -> xyz -> Prop) coords la lo r : (forall i q, at_ i q <-> exists a b, coords i a b /\ q = position G Cartesian a b) ->
  (forall i a b a' b', coords i a b -> coords i a' b' -> a = a' /\ b = b') -> (forall i j : I, {i = j} + {i <> j}) -> (exists i q, at_ i q) ->
  knn_distance at_ coords (position G Cartesian la lo) Cartesian la lo 1 r -> nearest_dist coords la lo r.
Proof.
  intros H1 H2 H3 (i0 & q0 & H4) H. pose proof H as (S & d & HS & -> & HM1 & HM2). exists d. split; [reflexivity|].
  assert (S <> []). { intros ->. destruct HS as (_ & _ & _ & HF & _). apply (HF ltac:(reflexivity) i0 q0 H4). }
  split; [destruct HM2 as [[? _]|(i & _ & Di)]; [contradiction|exists i; exact Di]|].
  intros j x Dj. destruct (knn_one G at_ coords la lo H1 H2 H3 _ H j x Dj) as (d' & E & L). injection E as ->. exact L.
Qed.
Lemma grid_some G t Y X lats lons g : is_grid G t Y X lats lons g -> exists i q, grid_at' G t lats lons i q.
Proof. intros H. pose proof (is_grid_pos _ _ _ _ _ _ _ H) as [HY HX]. destruct (grid_at_some _ _ _ _ _ _ _ 0 0 H) as [q Hq]; [lia|lia|]. exists (0, 0), q. exact Hq. Qed.
Lemma points_some G t las los P : is_points G t las los P -> las <> [] -> exists i q, point_at G t las los i q.
Proof.
  intros H N. destruct (points_inv _ _ _ _ _ H) as (HL & _). assert (0 < zlen las) by (destruct las; [contradiction|rewrite zlen_cons; pose proof (zlen_nonneg las); lia]).
  destruct (znth_some las 0) as [la Hla]; [lia|]. destruct (znth_some los 0) as [lo Hlo]; [lia|]. exists 0, (position G t la lo), la, lo. auto.
Qed.
Lemma c94_one : forall G, geo_ok G ->
  (forall Y X lats lons g las los P, is_grid G Cartesian Y X lats lons g -> is_points G Cartesian las los P ->
     (exists out, distance_gp G g P 1 = Ok out /\ zlen out = zlen las /\ forall i la lo, znth las i = Ok la -> znth los i = Ok lo ->
        exists r, znth out i = Ok r /\ nearest_dist (grid_coords lats lons) la lo r) /\
     (las <> [] -> exists out, distance_pg G P g 1 = Ok out /\ rect Y X out /\ forall i j la lo, get2 lats i j = Ok la -> get2 lons i j = Ok lo ->
        exists r, get2 out i j = Ok r /\ nearest_dist (point_coords las los) la lo r)) /\
  (forall Y X lats lons g Y' X' lats' lons' g', is_grid G Cartesian Y X lats lons g -> is_grid G Cartesian Y' X' lats' lons' g' ->
     exists out, distance_gg G g g' 1 = Ok out /\ rect Y' X' out /\ forall i j la lo, get2 lats' i j = Ok la -> get2 lons' i j = Ok lo ->
        exists r, get2 out i j = Ok r /\ nearest_dist (grid_coords lats lons) la lo r) /\
  (forall las los P las' los' P', is_points G Cartesian las los P -> is_points G Cartesian las' los' P' -> las <> [] ->
     exists out, distance_pp G P P' 1 = Ok out /\ zlen out = zlen las' /\ forall i la lo, znth las' i = Ok la -> znth los' i = Ok lo ->
        exists r, znth out i = Ok r /\ nearest_dist (point_coords las los) la lo r).
Proof.
  intros G HG.
  assert (QG : forall Y X lats lons g la lo r, is_grid G Cartesian Y X lats lons g ->
    knn_distance (grid_at' G Cartesian lats lons) (grid_coords lats lons) (position G Cartesian la lo) Cartesian la lo 1 r -> nearest_dist (grid_coords lats lons) la lo r).
  { intros Y X lats lons g la lo r H. apply one_nearest; [apply at_grid_coords|apply grid_coords_fun|apply zz_dec|eapply grid_some; eauto]. }
  assert (QP : forall las los P la lo r, is_points G Cartesian las los P -> las <> [] ->
    knn_distance (point_at G Cartesian las los) (point_coords las los) (position G Cartesian la lo) Cartesian la lo 1 r -> nearest_dist (point_coords las los) la lo r).
  { intros las los P la lo r H N. apply one_nearest; [apply at_point_coords|apply point_coords_fun|apply Z.eq_dec|eapply points_some; eauto]. }
  repeat split.
  - destruct (c94_gp G Cartesian Y X lats lons g las los P 1 HG) as (a & Ea & La & Ka); auto; [lia|]. exists a. split; [exact Ea|]. split; [exact La|].
    intros i la lo A B. destruct (Ka i la lo A B) as (r & E & K). eauto.
  - intros N. destruct (c94_pg G Cartesian las los P Y X lats lons g 1 HG) as (a & Ea & La & Ka); auto; [lia|]. exists a. split; [exact Ea|]. split; [exact La|].
    intros i j la lo A B. destruct (Ka i j la lo A B) as (r & E & K). eauto.
  - intros Y X lats lons g Y' X' lats' lons' g' H H'. destruct (c94_gg G Cartesian Y X lats lons g Y' X' lats' lons' g' 1 HG) as (a & Ea & La & Ka); auto; [lia|]. exists a. split; [exact Ea|]. split; [exact La|].
    intros i j la lo A B. destruct (Ka i j la lo A B) as (r & E & K). eauto.
  - intros las los P las' los' P' H H' N. destruct (c94_pp G Cartesian las los P las' los' P' 1 HG) as (a & Ea & La & Ka); auto; [lia|]. exists a. split; [exact Ea|]. split; [exact La|].
    intros i la lo A B. destruct (Ka i la lo A B) as (r & E & K). eauto.
Qed.
