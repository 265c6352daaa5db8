(** C61, C62 and C83: cases where the stated behaviour fails. *)
From Verif Require Import Base QcTac ListLib M_Geo S_Geo S_Near M_OI S_OI P_Geo P_OI P_OIInv.
Local Open Scope Z_scope.

Lemma setting0 R blas blos bpts las los pts : is_points G0 Cartesian blas blos bpts -> is_points G0 Cartesian las los pts ->
  setting G0 L0 (sf0 R) Cartesian blas blos bpts las los pts (fun _ => Fin R) kern kern.
Proof.
  intros H1 H2. constructor; [apply geo_ok_G0|apply lib_ok_L0|repeat split|apply is_points_at; exact H1|apply is_points_at; exact H2].
Qed.
Lemma gsetting0 R Y X lats lons g las los pts : is_grid G0 Cartesian Y X lats lons g -> is_points G0 Cartesian las los pts ->
  gsetting G0 L0 (sf0 R) Cartesian Y X lats lons g las los pts (fun _ => Fin R) kern kern.
Proof.
  intros H1 H2. constructor; [apply geo_ok_G0|apply lib_ok_L0|repeat split|exact H1|apply is_points_at; exact H2].
Qed.
Ltac pts_now := exists [], []; cbn; reflexivity.
Ltac rect_now := split; [reflexivity | cbn; intuition (subst; reflexivity)].
Ltac grid_now := split; [lia|]; split; [lia|]; split; [rect_now|]; split; [rect_now|];
  exists [], []; split; [auto|]; split; [auto|]; cbn; reflexivity.

Lemma c61_refuted : exists G L S t blas blos bpts las los pts loc rho bg background bvariance pobs ov pbg bvp o out var,
  setting G L S t blas blos bpts las los pts loc rho bg /\ zlen pbg = zlen las /\
  oi_full G L S bpts background bvariance pts pobs ov pbg bvp 0 [] false = Ok (out, var) /\
  (forall k a b, znth pobs k = Ok (Fin a) -> znth pbg k = Ok (Fin b) -> (a - b <= 0)%Qc) /\
  znth background 0 = Ok (Fin 0) /\ znth out 0 = Ok (Fin o) /\ (0 < o)%Qc.
Proof.
  exists G0, L0, (sf0 (qz 10)), Cartesian, [qz 0], [qz 2]. eexists. exists [qz 0; qz 0], [qz 0; qz 1]. eexists. exists (fun _ => Fin (qz 10)), kern, kern,
    [fz 0], [fz 1], [fz (-1); fz 0], [fz 0; fz 0], [fz 0; fz 0], [fz 1; fz 1], (Q2Qc (1 # 15)), [fq (1 # 15)], [fq (56 # 75)].
  split; [apply setting0; pts_now|]. split; [reflexivity|]. split; [vm_compute; reflexivity|]. split.
  - intros k a b Ha Hb. pose proof (znth_range _ _ _ Ha) as R. unfold zlen in R. cbn in R.
    assert (k = 0 \/ k = 1) as [-> | ->] by lia; vm_compute in Ha, Hb; injection Ha as <-; injection Hb as <-; vm_compute; discriminate.
  - split; [reflexivity|]. split; [reflexivity|]. vm_compute. reflexivity.
Qed.
(** no observations: the analysis variance is read although it was never written *)
Lemma c62_refuted : exists G L S t Y X lats lons g las los pts loc rho bg background bvariance,
  gsetting G L S t Y X lats lons g las los pts loc rho bg /\ rect Y X background /\ rect Y X bvariance /\ points_size pts = 0 /\
  oi_full_grid G L S g background bvariance pts [] [] [] [] 0 true = UB.
Proof.
  exists G0, L0, (sf0 (qz 10)), Cartesian, 1, 2, [[qz 0; qz 0]], [[qz 0; qz 1]]. eexists. exists [], []. eexists. exists (fun _ => Fin (qz 10)), kern, kern, [[fz 3; fz 4]], [[fz 1; fz 1]].
  split; [apply gsetting0; [grid_now|pts_now]|]. split; [rect_now|]. split; [rect_now|]. split; vm_compute; reflexivity.
Qed.
(** sizes that are not checked: the background at the observations (Points versions) and the background variance
    and point background variance (Grid version) *)
Lemma c83_refuted :
  (exists G L S t blas blos bpts las los pts loc rho bg background bvariance pobs ov pbg bvp,
     setting G L S t blas blos bpts las los pts loc rho bg /\ zlen pbg <> points_size pts /\
     oi_full G L S bpts background bvariance pts pobs ov pbg bvp 0 [] true = UB /\
     oi_points G L S bpts background pts pobs ov pbg 0 true = UB) /\
  (exists G L S t Y X lats lons g las los pts loc rho bg background bvariance pobs ov pbg bvp,
     gsetting G L S t Y X lats lons g las los pts loc rho bg /\ rect Y X background /\ zlen bvariance <> Y /\
     oi_full_grid G L S g background bvariance pts pobs ov pbg bvp 0 true = UB).
Proof.
  split.
  - exists G0, L0, (sf0 (qz 10)), Cartesian, [qz 0], [qz 2]. eexists. exists [qz 0], [qz 1]. eexists. exists (fun _ => Fin (qz 10)), kern, kern, [fz 0], [fz 1], [fz 1], [fz 1], [], [fz 1].
    split; [apply setting0; pts_now|]. split; [vm_compute; discriminate|]. split; vm_compute; reflexivity.
  - exists G0, L0, (sf0 (qz 10)), Cartesian, 2, 2, [[qz 0; qz 0]; [qz 1; qz 1]], [[qz 0; qz 1]; [qz 0; qz 1]]. eexists. exists [qz 0], [qz 1]. eexists.
    exists (fun _ => Fin (qz 10)), kern, kern, [[fz 3; fz 4]; [fz 3; fz 4]], [[fz 1; fz 1]], [fz 1], [fz 1], [fz 0], [fz 1].
    split; [apply gsetting0; [grid_now|pts_now]|]. split; [rect_now|]. split; [vm_compute; discriminate|]. vm_compute; reflexivity.
Qed.

(** *** data for the examples: observations at x = 0 and x = 1, or only the first *)
Definition r01 (k j : Z) : Qc := (1 / (1 + (qz k - qz j) * (qz k - qz j)))%Qc.
Definition g2 (k : Z) : Qc := (1 / (1 + (qz 2 - qz k) * (qz 2 - qz k)))%Qc.
Definition d01 (k : Z) : Qc := if k =? 0 then qz (-1) else qz 3.
Ltac two k R := pose proof (znth_range _ _ _ R) as RR; unfold zlen in RR; cbn in RR; assert (k = 0 \/ k = 1) as [-> | ->] by lia.
Lemma ex_obs ov bvp ratio : (forall k, 0 <= k < 2 -> exists vo vb, znth ov k = Ok (Fin vo) /\ znth bvp k = Ok (Fin vb) /\ vb <> 0%Qc /\ ratio k = (vo / vb)%Qc) ->
  forall pts, is_points G0 Cartesian [qz 0; qz 0] [qz 0; qz 1] pts -> known_obs pts 2 kern ov bvp r01 ratio.
Proof.
  intros H pts (e & f & Hp). split; [|exact H]. assert (A := is_points_at _ _ _ _ _ (ex_intro _ e (ex_intro _ f Hp))).
  assert (K : forall k p, points_get pts k = Ok p -> (k = 0 \/ k = 1) /\ p_lon p = Fin (qz k)).
  { intros k p Hk. unfold points_get in Hk. destruct A as (_ & E1 & E2 & _). rewrite E1, E2, !znth_map in Hk.
    destruct (znth [qz 0; qz 0] k) as [la| | |] eqn:Ea; try discriminate. destruct (znth [qz 0; qz 1] k) as [lo| | |] eqn:Eo; try discriminate. cbn [bind] in Hk.
    destruct (znth (s_elevs pts) k); try discriminate. destruct (znth (s_lafs pts) k); try discriminate. destruct (znth (t_pts (s_tree pts)) k); try discriminate.
    cbn [bind] in Hk. injection Hk as <-. cbn [p_lon]. two k Eo; (split; [auto|]); vm_compute in Eo; injection Eo as <-; reflexivity. }
  intros k j pk pj Hk Hj. destruct (K _ _ Hk) as [_ E1]. destruct (K _ _ Hj) as [_ E2]. unfold kern. rewrite E1, E2. reflexivity.
Qed.
Lemma ex_cell pts p1 : is_points G0 Cartesian [qz 0; qz 0] [qz 0; qz 1] pts -> p_lon p1 = Fin (qz 2) -> known_cell pts kern p1 g2.
Proof.
  intros Hp E k pk Hk. apply is_points_at in Hp. destruct Hp as (_ & E1 & E2 & _). unfold points_get in Hk. rewrite E1, E2, !znth_map in Hk.
  destruct (znth [qz 0; qz 0] k) as [la| | |] eqn:Ea; try discriminate. destruct (znth [qz 0; qz 1] k) as [lo| | |] eqn:Eo; try discriminate. cbn [bind] in Hk.
  destruct (znth (s_elevs pts) k); try discriminate. destruct (znth (s_lafs pts) k); try discriminate. destruct (znth (t_pts (s_tree pts)) k); try discriminate.
  cbn [bind] in Hk. injection Hk as <-. unfold kern. cbn [p_lon]. rewrite E. two k Eo; vm_compute in Eo; injection Eo as <-; reflexivity.
Qed.
Lemma ex_dep : departures [fz 1; fz 5] [fz 2; fz 2] d01.
Proof.
  intros k o b Ho Hb. two k Ho; vm_compute in Ho, Hb; injection Ho as <-; injection Hb as <-; apply Qc_is_canon; vm_compute; reflexivity.
Qed.
(** two correlated variables and a third *)
Lemma ex_valid : forall U c, NoDup U -> (forall k, In k U -> 0 <= k < 2) -> (0 <= tot U (fun k => tot U (fun j => c k * c j * r01 k j)))%Qc.
Proof.
  intros U c ND HU.
  assert (E00 : r01 0 0 = 1%Qc) by (apply Qc_is_canon; vm_compute; reflexivity). assert (E11 : r01 1 1 = 1%Qc) by (apply Qc_is_canon; vm_compute; reflexivity).
  assert (E01 : r01 0 1 = Q2Qc (1 # 2)) by (apply Qc_is_canon; vm_compute; reflexivity). assert (E10 : r01 1 0 = Q2Qc (1 # 2)) by (apply Qc_is_canon; vm_compute; reflexivity).
  assert (Z2 : forall k, In k U -> k = 0 \/ k = 1) by (intros k Hk; specialize (HU k Hk); lia).
  assert (Hh : (Q2Qc (1 # 2) + Q2Qc (1 # 2) = 1)%Qc) by (apply Qc_is_canon; vm_compute; reflexivity).
  assert (Two : forall a b, (0 <= a * a * 1 + (a * b * Q2Qc (1 # 2) + 0) + (b * a * Q2Qc (1 # 2) + (b * b * 1 + 0) + 0))%Qc).
  { intros a b. generalize dependent (Q2Qc (1 # 2)). intros hf. intros. 
    replace (a * a * 1 + (a * b * hf + 0) + (b * a * hf + (b * b * 1 + 0) + 0))%Qc with (a * a + b * b + a * b * (hf + hf))%Qc by ring.
    rewrite Hh. assert (0 <= (a + b) * (a + b))%Qc by (generalize (a + b)%Qc; intros; qnra). assert (0 <= a * a)%Qc by qnra. assert (0 <= b * b)%Qc by qnra. qnra. }
  destruct U as [|a [|b [|c' U]]].
  - vm_compute. discriminate.
  - unfold tot. cbn [map fold_right]. destruct (Z2 a) as [-> | ->]; cbn; auto; rewrite ?E00, ?E11; [generalize (c 0)|generalize (c 1)]; intros x; assert (0 <= x * x)%Qc by qnra; qnra.
  - unfold tot. cbn [map fold_right]. inversion ND as [|? ? N1 N2]; subst. destruct (Z2 a) as [-> | ->]; [cbn; auto| |]; (destruct (Z2 b) as [-> | ->]; [cbn; auto| |]); try (exfalso; apply N1; cbn; auto; fail);
      rewrite ?E00, ?E01, ?E10, ?E11; rewrite ?Qcplus_0_r.
    + pose proof (Two (c 0) (c 1)) as T. rewrite ?Qcplus_0_r in T. exact T.
    + pose proof (Two (c 1) (c 0)) as T. rewrite ?Qcplus_0_r in T. exact T.
  - exfalso. inversion ND as [|? ? N1 N2]; subst. inversion N2 as [|? ? N3 N4]; subst.
    destruct (Z2 a), (Z2 b), (Z2 c'); subst; cbn in *; intuition lia.
Qed.
Lemma ex_valid_g : valid_corr 2 r01 g2.
Proof.
  intros U c0 c ND HU.
  assert (E00 : r01 0 0 = 1%Qc) by (apply Qc_is_canon; vm_compute; reflexivity). assert (E11 : r01 1 1 = 1%Qc) by (apply Qc_is_canon; vm_compute; reflexivity).
  assert (E01 : r01 0 1 = Q2Qc (1 # 2)) by (apply Qc_is_canon; vm_compute; reflexivity). assert (E10 : r01 1 0 = Q2Qc (1 # 2)) by (apply Qc_is_canon; vm_compute; reflexivity).
  assert (F0 : g2 0 = Q2Qc (1 # 5)) by (apply Qc_is_canon; vm_compute; reflexivity). assert (F1 : g2 1 = Q2Qc (1 # 2)) by (apply Qc_is_canon; vm_compute; reflexivity).
  assert (Z2 : forall k, In k U -> k = 0 \/ k = 1) by (intros k Hk; specialize (HU k Hk); lia).
  assert (Three : forall x a b, (0 <= x * x + (x + x) * (a * Q2Qc (1 # 5) + b * Q2Qc (1 # 2)) + (a * a + (a * b + b * a) * Q2Qc (1 # 2) + b * b))%Qc).
  { intros x a b. assert (Hh : (Q2Qc (1 # 2) + Q2Qc (1 # 2) = 1)%Qc) by (apply Qc_is_canon; vm_compute; reflexivity).
    assert (Hf : (Q2Qc (1 # 5) + Q2Qc (1 # 5) + Q2Qc (1 # 5) + Q2Qc (1 # 5) + Q2Qc (1 # 5) = 1)%Qc) by (apply Qc_is_canon; vm_compute; reflexivity).
    clear E00 E11 E01 E10 F0 F1. set (h := Q2Qc (1 # 2)) in *. set (v := Q2Qc (1 # 5)) in *. clearbody h v.
    assert (S1 : (0 <= (x + a) * (x + a))%Qc) by (generalize (x + a)%Qc; intros; qnra). assert (S2 : (0 <= (x + b) * (x + b))%Qc) by (generalize (x + b)%Qc; intros; qnra).
    assert (S3 : (0 <= (a + b) * (a + b))%Qc) by (generalize (a + b)%Qc; intros; qnra). assert (S4 : (0 <= x * x)%Qc) by qnra. assert (S5 : (0 <= a * a)%Qc) by qnra.
    assert (V0 : (0 <= v)%Qc) by qlra. assert (V1 : (v + v + v + v + v <= 1)%Qc) by qlra. assert (H0 : (0 <= h)%Qc) by qlra.
    replace (x * x + (x + x) * (a * v + b * h) + (a * a + (a * b + b * a) * h + b * b))%Qc with
      (x * x + a * a + b * b + (x * a) * (v + v) + (x * b) * (h + h) + (a * b) * (h + h))%Qc by ring. rewrite Hh.
    assert (P1 : (0 <= (v + v) * ((x + a) * (x + a)))%Qc) by (generalize dependent ((x + a) * (x + a))%Qc; intros; qnra).
    assert (P2 : ((v + v) * ((x + a) * (x + a)) = (v + v) * (x * x) + (v + v) * (a * a) + (x * a) * (v + v) + (x * a) * (v + v))%Qc) by ring. rewrite P2 in P1.
    assert (P3 : (0 <= x * x + b * b + x * b + x * b)%Qc) by (replace (x * x + b * b + x * b + x * b)%Qc with ((x + b) * (x + b))%Qc by ring; exact S2).
    assert (P4 : (0 <= a * a + b * b + a * b + a * b)%Qc) by (replace (a * a + b * b + a * b + a * b)%Qc with ((a + b) * (a + b))%Qc by ring; exact S3).
    assert (P5 : (0 <= (1 - (v + v)) * (x * x))%Qc) by (generalize dependent (x * x)%Qc; intros; qnra).
    assert (P6 : (0 <= (1 - (v + v)) * (a * a))%Qc) by (generalize dependent (a * a)%Qc; intros; qnra).
    assert (P7 : ((1 - (v + v)) * (x * x) = x * x - (v + v) * (x * x))%Qc) by ring. rewrite P7 in P5.
    assert (P8 : ((1 - (v + v)) * (a * a) = a * a - (v + v) * (a * a))%Qc) by ring. rewrite P8 in P6.
    clear P2 P7 P8 S1 S2 S3 Hf Hh V0 V1 H0. 
    generalize dependent ((v + v) * (x * x))%Qc. generalize dependent ((v + v) * (a * a))%Qc. generalize dependent (x * a * (v + v))%Qc.
    generalize dependent (x * b)%Qc. generalize dependent (a * b)%Qc. generalize dependent (a * a)%Qc. generalize dependent (x * x)%Qc. generalize (b * b)%Qc.
    intros. qlra. }
  destruct U as [|a [|b [|c' U]]].
  - unfold tot. cbn [map fold_right]. pose proof (Three c0 0%Qc 0%Qc) as T. match type of T with (_ <= ?A)%Qc => match goal with |- (_ <= ?B)%Qc => replace B with A by ring; exact T end end.
  - unfold tot. cbn [map fold_right]. destruct (Z2 a) as [-> | ->]; cbn [In]; auto; rewrite ?E00, ?E11, ?F0, ?F1.
    + pose proof (Three c0 (c 0) 0%Qc) as T. match type of T with (_ <= ?A)%Qc => match goal with |- (_ <= ?B)%Qc => replace B with A by ring; exact T end end.
    + pose proof (Three c0 0%Qc (c 1)) as T. match type of T with (_ <= ?A)%Qc => match goal with |- (_ <= ?B)%Qc => replace B with A by ring; exact T end end.
  - unfold tot. cbn [map fold_right]. inversion ND as [|? ? N1 N2]; subst. pose proof (Three c0 (c 0) (c 1)) as T.
    destruct (Z2 a) as [-> | ->]; [cbn; auto| |]; (destruct (Z2 b) as [-> | ->]; [cbn; auto| |]); try (exfalso; apply N1; cbn; auto; fail);
      rewrite ?E00, ?E01, ?E10, ?E11, ?F0, ?F1;
      match type of T with (_ <= ?A)%Qc => match goal with |- (_ <= ?B)%Qc => replace B with A by ring; exact T end end.
  - exfalso. inversion ND as [|? ? N1 N2]; subst. inversion N2 as [|? ? N3 N4]; subst.
    destruct (Z2 a), (Z2 b), (Z2 c'); subst; cbn in *; intuition lia.
Qed.
(** points on the x axis; a 2x2 grid of unit cells *)
Definition xpts (xs : list Z) : points :=
  match mk_points G0 (map (fun _ => fz 0) xs) (map fz xs) [] [] Cartesian with Ok p => p
  | _ => {| s_lats := []; s_lons := []; s_elevs := []; s_lafs := []; s_tree := empty_tree Cartesian |} end.
Definition zeros (xs : list Z) : list Qc := map (fun _ => qz 0) xs.
Definition grid22 : grid :=
  match mk_grid G0 [[fz 0; fz 0]; [fz 1; fz 1]] [[fz 0; fz 1]; [fz 0; fz 1]] [] [] Cartesian with Ok g => g
  | _ => {| g_lats := []; g_lons := []; g_elevs := []; g_lafs := []; g_X := 0; g_tree := empty_tree Cartesian |} end.
Ltac two_now := intros ? ?K; match type of K with 0 <= ?k < 2 => assert (k = 0 \/ k = 1) as [-> | ->] by lia end.
