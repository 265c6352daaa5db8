(** Proofs for C285 and C286. *)
From Verif Require Import Base ListLib M_Stat M_Curve M_Geo M_Near M_Bilin M_Down M_Grd S_Stat S_Neigh S_Geo S_Near P_Geo P_Grid P_Points P_Near P_Grd P_Write S_Sizes.
Local Open Scope Z_scope.

Lemma bad2 {A} G t Y X lats lons g (v : list (list A)) : is_grid G t Y X lats lons g -> other_size Y X v -> compat_grid2 g v = Ok false.
Proof. intros H (v0 & H0 & N). apply (compat_grid2_bad _ _ _ _ _ _ _ _ _ H H0). intros Q. assert (zlen v = Y /\ zlen v0 = X) by (split; congruence). lia. Qed.
Lemma bad3 {A} G t Y X lats lons g (v : list (list (list A))) : is_grid G t Y X lats lons g -> other_size3 Y X v -> compat_grid3 g v = Ok false.
Proof.
  intros H (v0 & H0 & B). unfold compat_grid3. pose proof (znth_range _ _ _ H0). rewrite (proj2 (Z.eqb_neq (zlen v) 0)) by lia. rewrite H0. cbn [bind].
  pose proof (bad2 _ _ _ _ _ _ _ _ H B) as C. unfold compat_grid2 in C. destruct (zlen v0 =? 0); [discriminate C|exact C].
Qed.
Lemma c285_sizes : forall E G t Y X lats lons ig, is_grid G t Y X lats lons ig ->
  (forall (v : vec2), other_size Y X v ->
     (forall og, nearest_gg2 G ig og v = Throw InvalidArgument /\ bilinear_gg2 E G ig og v = Throw InvalidArgument) /\
     (forall op, nearest_gp2 G ig op v = Throw InvalidArgument /\ bilinear_gp2 E G ig op v = Throw InvalidArgument) /\
     (forall og d, downscaling_gg2 E G ig og v d = Throw InvalidArgument) /\ (forall op d, downscaling_gp2 E G ig op v d = Throw InvalidArgument) /\
     (forall og a d, simple_gradient_gg2 E G ig og v a d = Throw InvalidArgument) /\ (forall op a d, simple_gradient_gp2 E G ig op v a d = Throw InvalidArgument) /\
     (forall op eg lg d, full_gradient_gp2 E G ig op v eg lg d = Throw InvalidArgument)) /\
  (forall (v : vec3), other_size3 Y X v ->
     (forall og, nearest_gg3 G ig og v = Throw InvalidArgument /\ bilinear_gg3 E G ig og v = Throw InvalidArgument) /\
     (forall op, nearest_gp3 G ig op v = Throw InvalidArgument /\ bilinear_gp3 E G ig op v = Throw InvalidArgument) /\
     (forall og d, downscaling_gg3 E G ig og v d = Throw InvalidArgument) /\ (forall op d, downscaling_gp3 E G ig op v d = Throw InvalidArgument) /\
     (forall og a d, simple_gradient_gg3 E G ig og v a d = Throw InvalidArgument) /\ (forall op a d, simple_gradient_gp3 E G ig op v a d = Throw InvalidArgument) /\
     (forall op eg lg d, full_gradient_gp3 E G ig op v eg lg d = Throw InvalidArgument)).
Proof.
  intros E G t Y X lats lons ig H. split; intros v B.
  - pose proof (bad2 _ _ _ _ _ _ _ _ H B) as C. assert (D : forall op d, downscaling_gp2 E G ig op v d = Throw InvalidArgument) by (intros; unfold downscaling_gp2; rewrite C; reflexivity).
    unfold nearest_gg2, nearest_gp2, bilinear_gg2, bilinear_gp2, downscaling_gg2, simple_gradient_gg2, simple_gradient_gp2, full_gradient_gp2. rewrite !C.
    repeat split; try (intros; reflexivity); intros; rewrite ?D; try reflexivity; apply D.
  - pose proof (bad3 _ _ _ _ _ _ _ _ H B) as C. assert (D : forall op d, downscaling_gp3 E G ig op v d = Throw InvalidArgument) by (intros; unfold downscaling_gp3; rewrite C; reflexivity).
    unfold nearest_gg3, nearest_gp3, bilinear_gg3, bilinear_gp3, downscaling_gg3, simple_gradient_gg3, simple_gradient_gp3, full_gradient_gp3. rewrite !C.
    repeat split; try (intros; reflexivity); intros; rewrite ?D; try reflexivity; apply D.
Qed.
Lemma c285_points : forall G t las los ip, is_points G t las los ip ->
  (forall (v : vec), zlen v <> zlen las -> (forall og, nearest_pg1 G ip og v = Throw InvalidArgument) /\ (forall op, nearest_pp1 G ip op v = Throw InvalidArgument)) /\
  (forall (v : vec2), other_length (zlen las) v -> (forall og, nearest_pg2 G ip og v = Throw InvalidArgument) /\ (forall op, nearest_pp2 G ip op v = Throw InvalidArgument)).
Proof.
  intros G t las los ip H. pose proof (ip_size _ _ _ _ _ H) as S. split; intros v B.
  - unfold nearest_pg1, nearest_pp1, compat_points1. rewrite S. rewrite (proj2 (Z.eqb_neq (zlen las) (zlen v))) by lia. split; reflexivity.
  - assert (C : compat_points2 ip v = Ok false).
    { destruct B as (v0 & H0 & N). unfold compat_points2. pose proof (znth_range _ _ _ H0). rewrite (proj2 (Z.eqb_neq (zlen v) 0)) by lia. rewrite H0. cbn [bind]. rewrite S. f_equal. lia. }
    unfold nearest_pg2, nearest_pp2. rewrite C. split; reflexivity.
Qed.
Lemma ss_bad G t Y X lats lons g (v : vec2) : is_grid G t Y X lats lons g -> other_size Y X v -> same_size g v = Ok false.
Proof.
  intros H (v0 & H0 & N). unfold same_size. rewrite (grid_size_ok _ _ _ _ _ _ _ H). cbn [bind]. destruct (Z.eqb_spec (zlen v) Y); [|reflexivity]. cbn [negb]. rewrite H0. cbn [bind]. f_equal. lia.
Qed.
Lemma ss_good G t Y X lats lons g (v : vec2) : is_grid G t Y X lats lons g -> rect Y X v -> same_size g v = Ok true.
Proof.
  intros H R. pose proof (is_grid_pos _ _ _ _ _ _ _ H) as [HY HX]. destruct (rect_row0 _ _ _ HY R) as (r & Hr & L). destruct R as [L1 _].
  unfold same_size. rewrite (grid_size_ok _ _ _ _ _ _ _ H). cbn [bind]. rewrite L1, Z.eqb_refl. cbn [negb]. rewrite Hr. cbn [bind]. f_equal. lia.
Qed.
Lemma sso_bad G t Y X lats lons g (v : vec2) : is_grid G t Y X lats lons g -> other_size Y X v -> same_size_opt g v = Ok false.
Proof. intros H B. unfold same_size_opt. destruct B as (v0 & H0 & N). pose proof (znth_range _ _ _ H0). rewrite (proj2 (Z.eqb_neq (zlen v) 0)) by lia. apply (ss_bad _ _ _ _ _ _ _ _ H). exists v0. auto. Qed.
Lemma sso_good G t Y X lats lons g (v : vec2) : is_grid G t Y X lats lons g -> v = [] \/ rect Y X v -> same_size_opt g v = Ok true.
Proof. intros H [->|R]; [reflexivity|]. unfold same_size_opt. destruct (zlen v =? 0); [reflexivity|]. exact (ss_good _ _ _ _ _ _ _ _ H R). Qed.
Lemma c285_gradients : forall E G t Y X lats lons ig to Yo Xo lato lono og v eg lg d, is_grid G t Y X lats lons ig -> is_grid G to Yo Xo lato lono og ->
  other_size Y X v \/ rect Y X v /\ (other_size Y X lg \/ (lg = [] \/ rect Y X lg) /\ other_size Y X eg) ->
  full_gradient_gg2 E G ig og v eg lg d = Throw InvalidArgument.
Proof.
  intros E G t Y X lats lons ig to Yo Xo lato lono og v eg lg d H HO B. unfold full_gradient_gg2. rewrite (grid_size_ok _ _ _ _ _ _ _ HO). cbn [bind].
  destruct B as [B|[R B]]; [rewrite (ss_bad _ _ _ _ _ _ _ _ H B); reflexivity|]. rewrite (ss_good _ _ _ _ _ _ _ _ H R). cbn [bind negb].
  destruct B as [B|[R2 B]]; [rewrite (sso_bad _ _ _ _ _ _ _ _ H B); reflexivity|]. rewrite (sso_good _ _ _ _ _ _ _ _ H R2). cbn [bind negb].
  rewrite (sso_bad _ _ _ _ _ _ _ _ H B). reflexivity.
Qed.
Lemma c285_written : forall G t Y X lats lons ig tp las los P, is_grid G t Y X lats lons ig -> is_points G tp las los P ->
  (forall v, other_size Y X v -> (forall radii value outside, fill G ig v P radii value outside = Throw InvalidArgument) /\
     (forall obs hw m, doping_square G ig v P obs hw m = Throw InvalidArgument) /\ (forall obs radii m, doping_circle G ig v P obs radii m = Throw InvalidArgument)) /\
  (forall v obs m, rect Y X v -> (forall hw, zlen obs <> zlen las \/ zlen hw <> zlen las -> doping_square G ig v P obs hw m = Throw InvalidArgument) /\
     (forall radii, zlen obs <> zlen las \/ zlen radii <> zlen las -> doping_circle G ig v P obs radii m = Throw InvalidArgument)).
Proof.
  intros G t Y X lats lons ig tp las los P H HP. split.
  - intros v B. pose proof (bad2 _ _ _ _ _ _ _ _ H B) as C. unfold fill, doping_square, doping_circle. rewrite C. repeat split.
  - intros v obs m R. unfold doping_square, doping_circle. rewrite (compat_grid2_ok _ _ _ _ _ _ _ _ H R). cbn [bind negb]. rewrite (ip_size _ _ _ _ _ HP).
    split; intros l B; (destruct (Z.eqb_spec (zlen las) (zlen obs)); [|reflexivity]); cbn [negb]; (destruct (Z.eqb_spec (zlen las) (zlen l)); [|reflexivity]); lia.
Qed.
Lemma c285_downscaler : forall E G t Y X lats lons ig, is_grid G t Y X lats lons ig ->
  (forall v : vec2, rect Y X v -> (forall og, downscaling_gg2 E G ig og v OtherDownscaler = Throw InvalidArgument) /\ (forall op, downscaling_gp2 E G ig op v OtherDownscaler = Throw InvalidArgument)) /\
  (forall v : vec3, Forall (rect Y X) v -> (forall og, downscaling_gg3 E G ig og v OtherDownscaler = Throw InvalidArgument) /\ (forall op, downscaling_gp3 E G ig op v OtherDownscaler = Throw InvalidArgument)).
Proof.
  intros E G t Y X lats lons ig H. split; intros v R; unfold downscaling_gg2, downscaling_gp2, downscaling_gg3, downscaling_gp3.
  - rewrite (compat_grid2_ok _ _ _ _ _ _ _ _ H R). split; reflexivity.
  - rewrite (compat_grid3_ok _ _ _ _ _ _ _ _ H R). split; reflexivity.
Qed.
(** curves and gradients *)
Lemma same_lens_nth {A B} (f : A -> B -> bool) : forall a b, same_lens f a b = true -> zlen a = zlen b /\ forall y u v, znth a y = Ok u -> znth b y = Ok v -> f u v = true.
Proof.
  induction a as [|x a IH]; intros [|z b] S; try discriminate S; [split; [reflexivity|]; intros y u v Q; apply znth_range in Q; change (zlen (@nil A)) with 0 in Q; lia|].
  cbn [same_lens] in S. apply andb_prop in S. destruct S as [S1 S2]. destruct (IH b S2) as [L N]. split; [rewrite !zlen_cons; lia|].
  intros y u v Hu Hv. pose proof (znth_range _ _ _ Hu) as R. destruct (Z.eq_dec y 0) as [->|NZ].
  - rewrite znth_cons0 in Hu. rewrite znth_cons0 in Hv. congruence.
  - rewrite znth_consS in Hu by lia. rewrite znth_consS in Hv by lia. exact (N _ _ _ Hu Hv).
Qed.
Lemma differ_not_same {A B} (f : list A -> list B -> bool) a b : (forall u v, f u v = true -> zlen u = zlen v) -> sizes_differ a b -> same_lens f a b = false.
Proof.
  intros HF D. destruct (same_lens f a b) eqn:S; [|reflexivity]. exfalso. apply same_lens_nth in S. destruct S as [L N]. destruct D as [D|(y & u & v & Hu & Hv & D)]; [lia|].
  apply D, HF. eauto.
Qed.
Lemma c286_gradient : forall E base values gt h num_min min_range default, sizes_differ base values -> calc_gradient E base values gt h num_min min_range default = Throw InvalidArgument.
Proof.
  intros E base values gt h num_min min_range default D. unfold calc_gradient. destruct (h <=? 0); [reflexivity|]. destruct (is_valid min_range && vltb min_range (fz 0)); [reflexivity|].
  destruct (num_min <? 0); [reflexivity|]. destruct (zlen base =? 0); [reflexivity|]. unfold compatible22. rewrite differ_not_same; [reflexivity| |exact D]. intros u v Q. lia.
Qed.
Lemma c286_curves : forall pb pa,
  (forall ref fc, zlen ref <> zlen fc \/ (ref = [] /\ fc = []) -> (forall l, apply_curve_vec l ref fc pb pa = Throw InvalidArgument) /\ (forall l, apply_curve_vec2 l ref fc pb pa = Throw InvalidArgument)) /\
  (forall l ref fc, sizes_differ ref fc \/ (exists y u v, znth ref y = Ok u /\ znth fc y = Ok v /\ sizes_differ u v) -> apply_curve_vec3 l ref fc pb pa = Throw InvalidArgument) /\
  (forall l ref fc, zlen l <> zlen ref \/ (exists u v, znth l 0 = Ok u /\ znth ref 0 = Ok v /\ zlen u <> zlen v) -> apply_curve_vec3 l ref fc pb pa = Throw InvalidArgument).
Proof.
  intros pb pa. split; [|split].
  - intros ref fc [N|[-> ->]]; unfold apply_curve_vec2, apply_curve_vec; [|split; reflexivity]. rewrite (proj2 (Z.eqb_neq (zlen ref) (zlen fc))) by lia. split; reflexivity.
  - intros l ref fc D. unfold apply_curve_vec3. replace (compatible33 ref fc) with false; [reflexivity|]. symmetry. unfold compatible33. destruct D as [D|(y & u & v & Hu & Hv & D)].
    + apply differ_not_same; [|exact D]. intros u v Q. apply same_lens_nth in Q. apply Q.
    + destruct (same_lens _ ref fc) eqn:S; [|reflexivity]. exfalso. apply same_lens_nth in S. destruct S as [_ S]. specialize (S _ _ _ Hu Hv). cbv beta in S. rewrite differ_not_same in S; [discriminate S| |exact D]. intros a b Q. lia.
  - intros l ref fc D. unfold apply_curve_vec3. destruct (compatible33 ref fc); [|reflexivity]. cbn [negb]. unfold compatible_size_23. destruct D as [N|(u & v & Hu & Hv & N)].
    + pose proof (zlen_nonneg l). pose proof (zlen_nonneg ref). replace ((zlen l =? 0) && (zlen ref =? 0)) with false by lia. rewrite (proj2 (Z.eqb_neq (zlen l) (zlen ref))) by lia. reflexivity.
    + pose proof (znth_range _ _ _ Hu). replace ((zlen l =? 0) && (zlen ref =? 0)) with false by lia. destruct (zlen l =? zlen ref); [|reflexivity]. cbn [negb]. rewrite Hu, Hv. cbn [bind].
      rewrite (proj2 (Z.eqb_neq (zlen u) (zlen v))) by lia. reflexivity.
Qed.
(** no fields, and fields of which only the first row has the right size, are not noticed *)
Ltac rect_n := split; [reflexivity | cbn; intuition (subst; reflexivity)].
Ltac grid_n := split; [lia|]; split; [lia|]; split; [rect_n|]; split; [rect_n|]; exists [], []; split; [auto|]; split; [auto|]; cbn; reflexivity.
Lemma c285_refuted : exists ig (v w : vec2), is_grid G0 Cartesian 2 1 [[qz 0]; [qz 1]] [[qz 0]; [qz 0]] ig /\ ~ rect 2 1 v /\ ~ rect 2 1 w /\
  nearest_gg2 G0 ig ig v = UB /\ nearest_gg2 G0 ig ig w = UB /\ zlen v = 0 /\ zlen w = 2.
Proof.
  eexists. exists [], [[fz 1]; []]. split; [grid_n|]. split; [intros [L _]; discriminate L|]. split; [intros [_ R]; specialize (R [] ltac:(cbn; auto)); discriminate R|].
  split; [vm_compute; reflexivity|]. split; [vm_compute; reflexivity|]. split; reflexivity.
Qed.
