(** Wind speed and direction. *)
From Coq Require Import Reals Lra Lia.
From Verif Require Import RBase RPow P_RBase M_Diag.
Local Open Scope R_scope.

Lemma PI_bounds : 31415926 / 10000000 < PI < 31415927 / 10000000.
Proof.
  pose proof (PI_2_3_7_ineq 3) as [L U]. unfold tg_alt, PI_2_3_7_tg, Ratan_seq in L, U. cbn [sum_f_R0 Nat.mul Nat.add] in L, U.
  cbn [pow Nat.mul Nat.add INR] in L, U. split; lra.
Qed.
Lemma gpi_bounds : PI < gpi /\ gpi - PI < 15 / 100000000 /\ 3 < gpi.
Proof. pose proof PI_bounds. unfold gpi. lra. Qed.

(** polar angle *)
Lemma sum_sq_pos x y : x <> 0 -> 0 < x * x + y * y.
Proof. intros H. assert (0 < x * x) by (apply Rsqr_pos_lt in H; exact H). pose proof (Rle_0_sqr y) as P. unfold Rsqr in P. lra. Qed.
Lemma atan_polar x y : x <> 0 -> sqrt (x * x + y * y) * cos (atan (y / x)) = Rabs x /\ sqrt (x * x + y * y) * sin (atan (y / x)) = y * (Rabs x / x).
Proof.
  intros H. rewrite cos_atan, sin_atan. assert (E : sqrt (x * x + y * y) = Rabs x * sqrt (1 + (y / x)²)).
  { rewrite <- sqrt_Rsqr_abs, <- sqrt_mult_alt by apply Rle_0_sqr. f_equal. unfold Rsqr. field. exact H. }
  rewrite E. assert (0 < sqrt (1 + (y / x)²)) by (apply sqrt_lt_R0; pose proof (Rle_0_sqr (y / x)); lra). split; field; lra.
Qed.
Lemma Ratan2_polar ny nx y x : x = sqrt (x * x + y * y) * cos (Ratan2 ny nx y x) /\ y = sqrt (x * x + y * y) * sin (Ratan2 ny nx y x).
Proof.
  unfold Ratan2. unfold Rltb. destruct (Rlt_dec 0 x) as [P|P].
  - destruct (atan_polar x y) as [C S]; [lra|]. rewrite C, S, Rabs_right by lra. split; [reflexivity|field; lra].
  - destruct (Rlt_dec x 0) as [N|N].
    + destruct (atan_polar x y) as [C S]; [lra|]. destruct (Rlt_dec 0 y) as [Y|Y]; [|destruct (Rlt_dec y 0) as [Y'|Y']].
      * rewrite neg_cos, neg_sin. rewrite !Ropp_mult_distr_r_reverse, C, S, Rabs_left by lra. split; [lra|field; lra].
      * replace (atan (y / x) - PI) with (- (PI - atan (y / x))) by ring. rewrite cos_neg, sin_antisym, Rtrigo_facts.cos_pi_minus, sin_PI_x. rewrite !Ropp_mult_distr_r_reverse, C, S, Rabs_left by lra.
        split; [lra|field; lra].
      * assert (y = 0) as -> by lra. replace (x * x + 0 * 0) with (x * x) by ring. replace (sqrt (x * x)) with (- x) by (fold (Rsqr x); rewrite sqrt_Rsqr_abs, Rabs_left by lra; reflexivity).
        destruct ny; unfold sgn_pi; rewrite ?cos_neg, ?sin_neg, cos_PI, sin_PI; split; ring.
    + assert (x = 0) as -> by lra. replace (0 * 0 + y * y) with (Rsqr y) by (unfold Rsqr; ring). rewrite sqrt_Rsqr_abs. destruct (Rlt_dec 0 y) as [Y|Y]; [|destruct (Rlt_dec y 0) as [Y'|Y']].
      * rewrite cos_PI2, sin_PI2, Rabs_right by lra. split; ring.
      * rewrite cos_neg, sin_neg, cos_PI2, sin_PI2, Rabs_left by lra. split; ring.
      * assert (y = 0) as -> by lra. rewrite Rabs_R0. split; ring.
Qed.
Lemma Ratan2_range ny nx y x : - PI <= Ratan2 ny nx y x <= PI.
Proof.
  pose proof PI_RGT_0. pose proof (atan_bound (y / x)) as B. unfold Ratan2, Rltb. destruct (Rlt_dec 0 x); [lra|]. destruct (Rlt_dec x 0) as [N|N].
  - assert (I : / x < 0) by (apply Rinv_lt_0_compat; lra). destruct (Rlt_dec 0 y) as [Y|Y].
    + assert (atan (y / x) < 0). { rewrite <- atan_0. apply atan_increasing. unfold Rdiv. nra. } lra.
    + destruct (Rlt_dec y 0) as [Y'|Y'].
      * assert (0 < atan (y / x)). { rewrite <- atan_0. apply atan_increasing. unfold Rdiv. nra. } lra.
      * destruct ny; unfold sgn_pi; lra.
  - destruct (Rlt_dec 0 y); [lra|]. destruct (Rlt_dec y 0); [lra|]. destruct nx; [destruct ny; unfold sgn_pi; lra|lra].
Qed.
Lemma wind_speed_RF x y : wind_speed (RF x) (RF y) = RF (sqrt (x * x + y * y)).
Proof.
  unfold wind_speed. cbn [rmul radd]. apply rsqrt_RF. pose proof (Rle_0_sqr x). pose proof (Rle_0_sqr y). unfold Rsqr in *. lra.
Qed.
Definition turn (a : R) : R := if Rlt_dec a 0 then a + 360 else a.
Lemma wind_direction_RF nx ny x y : wind_direction nx ny (RF x) (RF y) = RF (turn (Ratan2 nx ny (- x) (- y) * 180 / gpi)).
Proof.
  pose proof gpi_bounds. unfold wind_direction, rz. cbn [rneg ratan2 rmul]. rewrite rdiv_RF by lra. cbn [rltb]. unfold turn, Rltb.
  destruct (Rlt_dec (Ratan2 nx ny (- x) (- y) * 180 / gpi) 0); reflexivity.
Qed.
Lemma scale_sign a c : 0 < c -> (a * 180 / c < 0 <-> a < 0).
Proof.
  intros Hc. assert (I : 0 < / c) by (apply Rinv_0_lt_compat; exact Hc). unfold Rdiv. split; intros H.
  - apply Rnot_le_lt. intros C. assert (0 <= a * 180 * / c) by (apply Rmult_le_pos; lra). lra.
  - assert (0 < - a * 180 * / c) by (apply Rmult_lt_0_compat; lra). lra.
Qed.
Lemma turned a : - PI <= a <= PI ->
  0 <= turn (a * 180 / gpi) < 360 /\ 0 <= turn (a * 180 / PI) < 360 /\ Rabs (turn (a * 180 / gpi) - turn (a * 180 / PI)) <= 1 / 100000 /\
  (0 <= a -> turn (a * 180 / gpi) < 180) /\ (a < 0 -> 180 < turn (a * 180 / gpi)).
Proof.
  intros H. pose proof gpi_bounds as (G1 & G2 & G3). pose proof PI_RGT_0 as P.
  assert (A : a * 180 / gpi * gpi = a * 180) by (field; lra). assert (B : a * 180 / PI * PI = a * 180) by (field; lra).
  pose proof (scale_sign a gpi ltac:(lra)) as S1. pose proof (scale_sign a PI ltac:(lra)) as S2.
  assert (D : a * 180 / PI - a * 180 / gpi = a / PI * (180 * (gpi - PI) / gpi)) by (field; lra).
  assert (D1 : 0 <= 180 * (gpi - PI) / gpi <= 1 / 100000).
  { split; [apply Rle_mult_inv_pos; lra|]. apply (Rmult_le_reg_r gpi); [lra|]. unfold Rdiv. rewrite Rmult_assoc, Rinv_l by lra. nra. }
  assert (E : a / PI * PI = a) by (field; lra). unfold turn.
  set (u := a * 180 / gpi) in *. set (v := a * 180 / PI) in *. set (w := a / PI) in *. set (k := 180 * (gpi - PI) / gpi) in *. clearbody u v w k.
  destruct (Rlt_dec u 0) as [U|U]; destruct (Rlt_dec v 0) as [V|V]; try (exfalso; tauto).
  - assert (a < 0) by tauto. repeat split; try lra; try nra. replace (u + 360 - (v + 360)) with (- (v - u)) by ring. rewrite D. rewrite Rabs_Ropp. assert (-1 <= w <= 0) by (split; nra).
    rewrite Rabs_left1 by nra. nra.
  - assert (0 <= a) by (apply Rnot_lt_le; tauto). repeat split; try lra; try nra. replace (u - v) with (- (v - u)) by ring. rewrite D. rewrite Rabs_Ropp. assert (0 <= w <= 1) by (split; nra).
    rewrite Rabs_right by nra. nra.
Qed.
Lemma turn_angle a : cos (turn (a * 180 / PI) * PI / 180) = cos a /\ sin (turn (a * 180 / PI) * PI / 180) = sin a.
Proof.
  pose proof PI_RGT_0. unfold turn. destruct (Rlt_dec (a * 180 / PI) 0).
  - replace ((a * 180 / PI + 360) * PI / 180) with (a + 2 * PI) by (field; lra). rewrite cos_plus, sin_plus, cos_2PI, sin_2PI. split; ring.
  - replace (a * 180 / PI * PI / 180) with a by (field; lra). auto.
Qed.
Lemma c65_speed : forall x y, exists s, wind_speed (RF x) (RF y) = RF s /\ 0 <= s /\ s * s = x * x + y * y /\ (s = 0 <-> x = 0 /\ y = 0) /\
  (forall k, wind_speed (RF (k * x)) (RF (k * y)) = RF (Rabs k * s)).
Proof.
  intros x y. exists (sqrt (x * x + y * y)). assert (P : 0 <= x * x + y * y) by (pose proof (Rle_0_sqr x); pose proof (Rle_0_sqr y); unfold Rsqr in *; lra).
  split; [apply wind_speed_RF|]. split; [apply sqrt_pos|]. split; [apply sqrt_sqrt; exact P|]. split.
  - split; intros H.
    + apply sqrt_eq_0 in H; [|exact P]. pose proof (Rle_0_sqr x). pose proof (Rle_0_sqr y). unfold Rsqr in *. split; apply Rsqr_0_uniq; unfold Rsqr; lra.
    + destruct H as [-> ->]. replace (0 * 0 + 0 * 0) with 0 by ring. apply sqrt_0.
  - intros k. rewrite wind_speed_RF. f_equal. rewrite <- sqrt_Rsqr_abs, <- sqrt_mult_alt by apply Rle_0_sqr. f_equal. unfold Rsqr. ring.
Qed.
Lemma c65_direction : forall nx ny x y s, wind_speed (RF x) (RF y) = RF s ->
  exists d theta, wind_direction nx ny (RF x) (RF y) = RF d /\ 0 <= d < 360 /\ 0 <= theta < 360 /\ Rabs (d - theta) <= 1 / 100000 /\
    x = - s * sin (theta * PI / 180) /\ y = - s * cos (theta * PI / 180).
Proof.
  intros nx ny x y s HS. rewrite wind_speed_RF in HS. injection HS as <-. set (a := Ratan2 nx ny (- x) (- y)).
  exists (turn (a * 180 / gpi)), (turn (a * 180 / PI)). destruct (turned a (Ratan2_range _ _ _ _)) as (H1 & H2 & H3 & _). split; [apply wind_direction_RF|].
  split; [exact H1|]. split; [exact H2|]. split; [exact H3|]. destruct (turn_angle a) as [-> ->]. destruct (Ratan2_polar nx ny (- x) (- y)) as [C S]. fold a in C, S.
  replace (- y * - y + - x * - x) with (x * x + y * y) in C, S by ring. split; lra.
Qed.
Lemma c65_determined : forall nx ny nx' ny' x y x' y', wind_speed (RF x) (RF y) = wind_speed (RF x') (RF y') ->
  wind_direction nx ny (RF x) (RF y) = wind_direction nx' ny' (RF x') (RF y') -> x = x' /\ y = y'.
Proof.
  intros nx ny nx' ny' x y x' y'. rewrite !wind_speed_RF, !wind_direction_RF. intros HS HD. injection HS as HS. injection HD as HD.
  destruct (Ratan2_polar nx ny (- x) (- y)) as [C S]. destruct (Ratan2_polar nx' ny' (- x') (- y')) as [C' S'].
  replace (- y * - y + - x * - x) with (x * x + y * y) in C, S by ring. replace (- y' * - y' + - x' * - x') with (x' * x' + y' * y') in C', S' by ring.
  pose proof (Ratan2_range nx ny (- x) (- y)) as R. pose proof (Ratan2_range nx' ny' (- x') (- y')) as R'. set (a := Ratan2 nx ny (- x) (- y)) in *. set (a' := Ratan2 nx' ny' (- x') (- y')) in *. clearbody a a'.
  destruct (turned a R) as (_ & _ & _ & T1 & T2). destruct (turned a' R') as (_ & _ & _ & T1' & T2').
  assert (G : 0 < gpi) by (pose proof gpi_bounds; lra). pose proof (scale_sign a gpi G). pose proof (scale_sign a' gpi G).
  assert (A : a * 180 / gpi * gpi = a * 180) by (field; lra). assert (A' : a' * 180 / gpi * gpi = a' * 180) by (field; lra).
  assert (a = a'). { unfold turn in *. set (u := a * 180 / gpi) in *. set (v := a' * 180 / gpi) in *. clearbody u v.
    destruct (Rlt_dec u 0) as [U|U]; destruct (Rlt_dec v 0) as [V|V].
    - assert (u = v) by lra. subst v. lra.
    - exfalso. assert (a < 0) by tauto. assert (0 <= a') by (apply Rnot_lt_le; tauto). specialize (T2 H1). specialize (T1' H2). lra.
    - exfalso. assert (0 <= a) by (apply Rnot_lt_le; tauto). assert (a' < 0) by tauto. specialize (T1 H1). specialize (T2' H2). lra.
    - subst v. lra. }
  subst a'. rewrite <- HS in C', S'. lra.
Qed.
