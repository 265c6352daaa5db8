(** Distances: proofs for calc_distance and calc_distance_fast. *)
From Coq Require Import Reals Lra Lia Psatz.
From Verif Require Import Base RBase M_Geo M_Near M_Dist S_Geo S_Near S_Dist P_RBase P_Press.
Local Open Scope R_scope.

Lemma earth_pos : 0 < earth. Proof. unfold earth. lra. Qed.
Lemma rad_RF x : deg2rad (RF x) = RF (rad x).
Proof. unfold deg2rad, rz. rewrite rmul_RF, rdiv_RF by lra. reflexivity. Qed.
Definition dot (la1 lo1 la2 lo2 : R) : R := sx la1 lo1 * sx la2 lo2 + sy la1 lo1 * sy la2 lo2 + sz la1 * sz la2.
Lemma unit_len la lo : sx la lo ^ 2 + sy la lo ^ 2 + sz la ^ 2 = 1.
Proof.
  unfold sx, sy, sz. pose proof (sin2_cos2 (rad la)) as A. pose proof (sin2_cos2 (rad lo)) as B. unfold Rsqr in *.
  set (c := cos (rad la)) in *. set (s := sin (rad la)) in *. set (c' := cos (rad lo)) in *. set (s' := sin (rad lo)) in *.
  transitivity (c * c * (s' * s' + c' * c') + s * s); [ring|]. rewrite B. lra.
Qed.
Lemma gram (u1 u2 u3 v1 v2 v3 : R) : u1 ^ 2 + u2 ^ 2 + u3 ^ 2 = 1 -> v1 ^ 2 + v2 ^ 2 + v3 ^ 2 = 1 ->
  -1 <= u1 * v1 + u2 * v2 + u3 * v3 <= 1.
Proof.
  intros A B. split.
  - pose proof (pow2_ge_0 (u1 + v1)). pose proof (pow2_ge_0 (u2 + v2)). pose proof (pow2_ge_0 (u3 + v3)). nra.
  - pose proof (pow2_ge_0 (u1 - v1)). pose proof (pow2_ge_0 (u2 - v2)). pose proof (pow2_ge_0 (u3 - v3)). nra.
Qed.
Lemma dot_range la1 lo1 la2 lo2 : -1 <= dot la1 lo1 la2 lo2 <= 1.
Proof. apply gram; apply unit_len. Qed.
Lemma chord_dot la1 lo1 la2 lo2 : chord2 la1 lo1 la2 lo2 = earth ^ 2 * (2 - 2 * dot la1 lo1 la2 lo2).
Proof.
  unfold chord2, dot. pose proof (unit_len la1 lo1) as A. pose proof (unit_len la2 lo2) as B.
  f_equal. set (a := sx la1 lo1) in *. set (b := sy la1 lo1) in *. set (c := sz la1) in *.
  set (a' := sx la2 lo2) in *. set (b' := sy la2 lo2) in *. set (c' := sz la2) in *.
  transitivity ((a ^ 2 + b ^ 2 + c ^ 2) + (a' ^ 2 + b' ^ 2 + c' ^ 2) - 2 * (a * a' + b * b' + c * c')); [ring|]. rewrite A, B. ring.
Qed.
(** an arc and the cosine of its angle *)
Lemma arc_cos c d : arc_over c d <-> 0 <= d <= PI * earth /\ c = earth ^ 2 * (2 - 2 * cos (d / earth)).
Proof.
  pose proof earth_pos as HE. unfold arc_over.
  assert (K : (2 * earth * sin (d / (2 * earth))) ^ 2 = earth ^ 2 * (2 - 2 * cos (d / earth))).
  { replace (d / earth) with (2 * (d / (2 * earth))) by (field; lra). rewrite cos_2a_sin. ring. }
  rewrite K. tauto.
Qed.
Lemma arc_range d : 0 <= d <= PI * earth -> 0 <= d / earth <= PI.
Proof.
  pose proof earth_pos as HE. intros [A B]. split.
  - apply Rmult_le_pos; [lra|]. left. apply Rinv_0_lt_compat. lra.
  - apply (Rmult_le_reg_r earth); [lra|]. replace (d / earth * earth) with d by (field; lra). lra.
Qed.
Lemma arc_le c d c' d' : arc_over c d -> arc_over c' d' -> (c <= c' <-> d <= d').
Proof.
  pose proof earth_pos as HE. rewrite !arc_cos. intros [A ->] [A' ->].
  pose proof (arc_range _ A) as B. pose proof (arc_range _ A') as B'.
  assert (E2 : 0 < earth ^ 2) by (apply pow_lt; lra).
  assert (Q : d <= d' <-> d / earth <= d' / earth).
  { split; intros H.
    - unfold Rdiv. apply Rmult_le_compat_r; [left; apply Rinv_0_lt_compat; lra|lra].
    - apply (Rmult_le_compat_r earth) in H; [|lra]. replace (d / earth * earth) with d in H by (field; lra).
      replace (d' / earth * earth) with d' in H by (field; lra). lra. }
  rewrite Q. set (x := d / earth) in *. set (y := d' / earth) in *. clearbody x y. split; intros H.
  - destruct (Rle_or_lt x y) as [|L]; [assumption|]. exfalso.
    assert (cos x < cos y) by (apply cos_decreasing_1; lra). nra.
  - assert (cos y <= cos x).
    { destruct H as [H| ->]; [|lra]. left. apply cos_decreasing_1; lra. } nra.
Qed.
Lemma arc_unique c d d' : arc_over c d -> arc_over c d' -> d = d'.
Proof. intros A B. pose proof (arc_le _ _ _ _ A B). pose proof (arc_le _ _ _ _ B A). lra. Qed.
Lemma acos_0 : acos 1 = 0. Proof. exact acos_1. Qed.
Lemma arc_acos la1 lo1 la2 lo2 : arc_over (chord2 la1 lo1 la2 lo2) (acos (dot la1 lo1 la2 lo2) * earth).
Proof.
  pose proof earth_pos as HE. apply arc_cos. rewrite chord_dot.
  pose proof (acos_bound (dot la1 lo1 la2 lo2)) as B.
  split. { split; [apply Rmult_le_pos; lra|apply Rmult_le_compat_r; lra]. }
  replace (acos (dot la1 lo1 la2 lo2) * earth / earth) with (acos (dot la1 lo1 la2 lo2)) by (field; lra).
  rewrite cos_acos by apply dot_range. reflexivity.
Qed.
Lemma calc_ok t la1 lo1 la2 lo2 : exists d, calc_distance (RF la1) (RF lo1) (RF la2) (RF lo2) t = RF d /\ is_distance t la1 lo1 la2 lo2 d.
Proof.
  destruct t; cbn [calc_distance is_distance].
  - destruct (reqb (RF la1) (RF la2) && reqb (RF lo1) (RF lo2)) eqn:E.
    + apply andb_prop in E as [E1 E2]. cbn in E1, E2. apply Reqb_spec in E1, E2. subst la2 lo2.
      exists 0. split; [reflexivity|]. replace 0 with (acos (dot la1 lo1 la1 lo1) * earth); [apply arc_acos|].
      replace (dot la1 lo1 la1 lo1) with 1; [rewrite acos_0; ring|].
      pose proof (unit_len la1 lo1). unfold dot. lra.
    + rewrite !rad_RF. cbn [rcos rsin]. rewrite !rmul_RF, !radd_RF.
      match goal with |- context[racos (RF ?x)] => replace x with (dot la1 lo1 la2 lo2) by (unfold dot, sx, sy, sz; ring) end.
      pose proof (dot_range la1 lo1 la2 lo2) as [A B]. cbn [racos].
      rewrite (Rltb_f _ (-1)) by lra. rewrite (Rltb_f 1) by lra. cbn [orb]. rewrite rmul_RF.
      eexists. split; [reflexivity|]. apply arc_acos.
  - unfold plane_distance, rsub. rewrite !rneg_RF, !radd_RF, !rmul_RF, !radd_RF.
    assert (0 <= (lo1 + - lo2) * (lo1 + - lo2) + (la1 + - la2) * (la1 + - la2)).
    { pose proof (pow2_ge_0 (lo1 + - lo2)). pose proof (pow2_ge_0 (la1 + - la2)). cbn [pow] in *. lra. }
    rewrite rsqrt_RF by assumption. eexists. split; [reflexivity|]. split; [apply R_sqrt.sqrt_pos|].
    rewrite sqrt_sqrt by assumption. unfold plane2. ring.
Qed.
Lemma plane2_sym la1 lo1 la2 lo2 : plane2 la1 lo1 la2 lo2 = plane2 la2 lo2 la1 lo1. Proof. unfold plane2. ring. Qed.
Lemma chord2_sym la1 lo1 la2 lo2 : chord2 la1 lo1 la2 lo2 = chord2 la2 lo2 la1 lo1. Proof. unfold chord2. ring. Qed.
Lemma dist_unique t la1 lo1 la2 lo2 d d' : is_distance t la1 lo1 la2 lo2 d -> is_distance t la1 lo1 la2 lo2 d' -> d = d'.
Proof.
  destruct t; cbn; [apply arc_unique|]. intros [A B] [A' B']. assert (d * d = d' * d') by lra.
  destruct (Rtotal_order d d') as [L|[E|L]]; [exfalso; nra|exact E|exfalso; nra].
Qed.
Lemma dist_sym t la1 lo1 la2 lo2 d : is_distance t la1 lo1 la2 lo2 d -> is_distance t la2 lo2 la1 lo1 d.
Proof. destruct t; cbn; [rewrite chord2_sym|rewrite plane2_sym]; auto. Qed.
Lemma calc_sym t la1 lo1 la2 lo2 : calc_distance (RF la1) (RF lo1) (RF la2) (RF lo2) t = calc_distance (RF la2) (RF lo2) (RF la1) (RF lo1) t.
Proof.
  destruct (calc_ok t la1 lo1 la2 lo2) as (d & -> & H). destruct (calc_ok t la2 lo2 la1 lo1) as (d' & -> & H').
  f_equal. eapply dist_unique; [exact H|]. apply dist_sym. exact H'.
Qed.
Lemma dist_nonneg t la1 lo1 la2 lo2 d : is_distance t la1 lo1 la2 lo2 d -> 0 <= d.
Proof. destruct t; cbn; [intros [H _]|intros [H _]]; lra. Qed.
Lemma sq0 a : a ^ 2 = 0 -> a = 0. Proof. intros H. nra. Qed.
Lemma dist_zero t la1 lo1 la2 lo2 d : is_distance t la1 lo1 la2 lo2 d -> (d = 0 <-> same_place t la1 lo1 la2 lo2).
Proof.
  pose proof earth_pos as HE. destruct t; cbn [is_distance same_place].
  - intros H. assert (E2 : 0 < earth ^ 2) by (apply pow_lt; lra). split.
    + intros ->. destruct H as [_ H]. replace (0 / (2 * earth)) with 0 in H by (field; lra). rewrite sin_0 in H.
      unfold chord2 in H. pose proof (pow2_ge_0 (sx la1 lo1 - sx la2 lo2)). pose proof (pow2_ge_0 (sy la1 lo1 - sy la2 lo2)).
      pose proof (pow2_ge_0 (sz la1 - sz la2)).
      set (p := (sx la1 lo1 - sx la2 lo2) ^ 2) in *. set (q := (sy la1 lo1 - sy la2 lo2) ^ 2) in *. set (r := (sz la1 - sz la2) ^ 2) in *.
      assert (p + q + r = 0). { apply (Rmult_eq_reg_l (earth ^ 2)); [|lra]. rewrite H. ring. }
      assert (p = 0) by lra. assert (q = 0) by lra. assert (r = 0) by lra. subst p q r.
      repeat split; [assert (sx la1 lo1 - sx la2 lo2 = 0) by (apply sq0; assumption)|assert (sy la1 lo1 - sy la2 lo2 = 0) by (apply sq0; assumption)|assert (sz la1 - sz la2 = 0) by (apply sq0; assumption)]; lra.
    + intros (A & B & C). apply (arc_unique (chord2 la1 lo1 la2 lo2)); [exact H|].
      unfold chord2. rewrite A, B, C. split; [pose proof PI_RGT_0; nra|]. replace (0 / (2 * earth)) with 0 by (field; lra). rewrite sin_0. ring.
  - intros [A B]. unfold plane2 in B. split.
    + intros ->. pose proof (pow2_ge_0 (lo1 - lo2)). pose proof (pow2_ge_0 (la1 - la2)).
      assert (P : (la1 - la2) ^ 2 = 0) by lra. assert (P' : (lo1 - lo2) ^ 2 = 0) by lra. apply sq0 in P, P'. split; lra.
    + intros [-> ->]. apply sq0. replace (d ^ 2) with (d * d) by ring. rewrite B. ring.
Qed.
(** the triangle inequality on the sphere *)
Lemma gram3 (u1 u2 u3 v1 v2 v3 w1 w2 w3 : R) : u1 ^ 2 + u2 ^ 2 + u3 ^ 2 = 1 -> v1 ^ 2 + v2 ^ 2 + v3 ^ 2 = 1 -> w1 ^ 2 + w2 ^ 2 + w3 ^ 2 = 1 ->
  let a := u1 * v1 + u2 * v2 + u3 * v3 in let b := v1 * w1 + v2 * w2 + v3 * w3 in let c := u1 * w1 + u2 * w2 + u3 * w3 in
  (c - a * b) ^ 2 <= (1 - a ^ 2) * (1 - b ^ 2).
Proof.
  intros U V W a b c.
  assert (D : 0 <= 1 - a ^ 2 - b ^ 2 - c ^ 2 + 2 * a * b * c).
  { replace (1 - a ^ 2 - b ^ 2 - c ^ 2 + 2 * a * b * c) with
      ((u1 ^ 2 + u2 ^ 2 + u3 ^ 2) * (v1 ^ 2 + v2 ^ 2 + v3 ^ 2) * (w1 ^ 2 + w2 ^ 2 + w3 ^ 2)
       - (w1 ^ 2 + w2 ^ 2 + w3 ^ 2) * a ^ 2 - (u1 ^ 2 + u2 ^ 2 + u3 ^ 2) * b ^ 2 - (v1 ^ 2 + v2 ^ 2 + v3 ^ 2) * c ^ 2 + 2 * a * b * c)
      by (rewrite U, V, W; ring).
    match goal with |- 0 <= ?x => replace x with ((u1 * (v2 * w3 - v3 * w2) - u2 * (v1 * w3 - v3 * w1) + u3 * (v1 * w2 - v2 * w1)) ^ 2) end.
    - apply pow2_ge_0.
    - unfold a, b, c. ring. }
  nra.
Qed.
Lemma acos_triangle a b c : -1 <= a <= 1 -> -1 <= b <= 1 -> -1 <= c <= 1 -> (c - a * b) ^ 2 <= (1 - a ^ 2) * (1 - b ^ 2) ->
  acos c <= acos a + acos b.
Proof.
  intros A B C H. pose proof (acos_bound a) as Ba. pose proof (acos_bound b) as Bb. pose proof (acos_bound c) as Bc.
  destruct (Rle_or_lt PI (acos a + acos b)) as [|L]; [lra|].
  destruct (Rle_or_lt (acos c) (acos a + acos b)) as [|L']; [assumption|]. exfalso.
  assert (K : cos (acos c) < cos (acos a + acos b)) by (apply cos_decreasing_1; lra).
  rewrite cos_acos, cos_plus, !cos_acos, !sin_acos in K by assumption.
  rewrite <- sqrt_mult in K by (unfold Rsqr; nra).
  set (m := (1 - a²) * (1 - b²)) in *. assert (Hm : 0 <= m) by (unfold m, Rsqr; apply Rmult_le_pos; nra).
  assert (M : (c - a * b) ^ 2 <= m) by (unfold m, Rsqr; nra).
  pose proof (R_sqrt.sqrt_pos m). pose proof (sqrt_sqrt m Hm). nra.
Qed.
Lemma plane_triangle (x1 y1 x2 y2 x3 y3 d12 d23 d13 : R) : 0 <= d12 -> 0 <= d23 -> 0 <= d13 ->
  d12 * d12 = (x1 - x2) ^ 2 + (y1 - y2) ^ 2 -> d23 * d23 = (x2 - x3) ^ 2 + (y2 - y3) ^ 2 ->
  d13 * d13 = (x1 - x3) ^ 2 + (y1 - y3) ^ 2 -> d13 <= d12 + d23.
Proof.
  intros A B C H1 H2 H3. destruct (Rle_or_lt d13 (d12 + d23)) as [|L]; [assumption|]. exfalso.
  set (a := x1 - x2) in *. set (b := y1 - y2) in *. set (c := x2 - x3) in *. set (d := y2 - y3) in *.
  replace (x1 - x3) with (a + c) in H3 by (unfold a, c; ring). replace (y1 - y3) with (b + d) in H3 by (unfold b, d; ring).
  clearbody a b c d.
  assert (K : a * c + b * d <= d12 * d23).
  { destruct (Rle_or_lt (a * c + b * d) (d12 * d23)) as [|N]; [assumption|]. exfalso.
    assert (Q : (a * c + b * d) ^ 2 <= (d12 * d23) ^ 2).
    { replace ((d12 * d23) ^ 2) with ((d12 * d12) * (d23 * d23)) by ring. rewrite H1, H2. pose proof (pow2_ge_0 (a * d - b * c)). nra. }
    assert (0 <= d12 * d23) by (apply Rmult_le_pos; assumption). nra. }
  nra.
Qed.
Lemma dist_triangle t la1 lo1 la2 lo2 la3 lo3 d12 d23 d13 : is_distance t la1 lo1 la2 lo2 d12 -> is_distance t la2 lo2 la3 lo3 d23 ->
  is_distance t la1 lo1 la3 lo3 d13 -> d13 <= d12 + d23.
Proof.
  pose proof earth_pos as HE. destruct t; cbn [is_distance].
  - intros A B C. rewrite (arc_unique _ _ _ A (arc_acos _ _ _ _)), (arc_unique _ _ _ B (arc_acos _ _ _ _)), (arc_unique _ _ _ C (arc_acos _ _ _ _)).
    rewrite <- Rmult_plus_distr_r. apply Rmult_le_compat_r; [lra|].
    apply acos_triangle; try apply dot_range. apply gram3; apply unit_len.
  - intros [A A'] [B B'] [C C']. unfold plane2 in *. eapply (plane_triangle lo1 la1 lo2 la2 lo3 la3); eauto.
Qed.
Lemma c93_all : forall t la1 lo1 la2 lo2 la3 lo3,
  exists d12 d23 d13,
  calc_distance (RF la1) (RF lo1) (RF la2) (RF lo2) t = RF d12 /\ is_distance t la1 lo1 la2 lo2 d12 /\
  calc_distance (RF la2) (RF lo2) (RF la1) (RF lo1) t = RF d12 /\
  calc_distance (RF la2) (RF lo2) (RF la3) (RF lo3) t = RF d23 /\
  calc_distance (RF la1) (RF lo1) (RF la3) (RF lo3) t = RF d13 /\
  0 <= d12 /\ (d12 = 0 <-> same_place t la1 lo1 la2 lo2) /\ d13 <= d12 + d23 /\
  (t = Geodetic -> d12 <= PI * earth /\ (d12 <= d13 <-> chord2 la1 lo1 la2 lo2 <= chord2 la1 lo1 la3 lo3)).
Proof.
  intros. destruct (calc_ok t la1 lo1 la2 lo2) as (d12 & E12 & H12). destruct (calc_ok t la2 lo2 la3 lo3) as (d23 & E23 & H23).
  destruct (calc_ok t la1 lo1 la3 lo3) as (d13 & E13 & H13). exists d12, d23, d13.
  split; [exact E12|]. split; [exact H12|]. split; [rewrite calc_sym; exact E12|]. split; [exact E23|]. split; [exact E13|].
  split; [eapply dist_nonneg; eauto|]. split; [eapply dist_zero; eauto|]. split; [eapply dist_triangle; eauto|].
  intros ->. cbn in *. split; [apply H12|]. symmetry. apply arc_le; assumption.
Qed.
(** ** calc_distance_fast *)
Lemma gap_unique lo1 lo2 w w' : lon_gap lo1 lo2 w -> lon_gap lo1 lo2 w' -> w = w'.
Proof.
  intros [A B] [A' B']. destruct (Rtotal_order w w') as [L|[E|L]]; [exfalso|exact E|exfalso].
  - assert (cos w' < cos w) by (apply cos_decreasing_1; lra). lra.
  - assert (cos w < cos w') by (apply cos_decreasing_1; lra). lra.
Qed.
Lemma cos_shift x (k : Z) : cos (x - 2 * PI * IZR k) = cos x.
Proof.
  destruct k as [|p|p]; [f_equal; lra| |].
  - rewrite <- (cos_period (x - 2 * PI * IZR (Z.pos p)) (Pos.to_nat p)). f_equal.
    rewrite INR_IZR_INZ, positive_nat_Z. ring.
  - rewrite <- (cos_period x (Pos.to_nat p)). f_equal. rewrite INR_IZR_INZ, positive_nat_Z.
    replace (IZR (Z.neg p)) with (- IZR (Z.pos p)) by (rewrite <- opp_IZR; reflexivity). ring.
Qed.
Lemma cos_Rabs x : cos (Rabs x) = cos x.
Proof. unfold Rabs. destruct (Rcase_abs x); [apply cos_neg|reflexivity]. Qed.
Lemma fmod_range x b : 0 < b -> 0 <= x - b * IZR (Int_part (x / b)) < b.
Proof.
  intros Hb. destruct (base_Int_part (x / b)) as [A B].
  assert (E : x = b * (x / b)) by (field; lra). set (q := x / b) in *. set (n := IZR (Int_part q)) in *. clearbody q n. subst x. split; nra.
Qed.
Definition wrap (x : R) : R := let m := x - 2 * PI * IZR (Int_part (x / (2 * PI))) in if Rltb PI m then 2 * PI - m else m.
Lemma wrap_gap lo1 lo2 : lon_gap lo1 lo2 (wrap (Rabs (rad lo1 - rad lo2))).
Proof.
  pose proof PI_RGT_0 as HP. unfold lon_gap, wrap. set (x := Rabs (rad lo1 - rad lo2)).
  rewrite <- (cos_Rabs (rad lo1 - rad lo2)). fold x.
  pose proof (fmod_range x (2 * PI) ltac:(lra)) as R. pose proof (cos_shift x (Int_part (x / (2 * PI)))) as C.
  set (m := x - 2 * PI * IZR (Int_part (x / (2 * PI)))) in *. clearbody m. cbn zeta.
  destruct (Rltb PI m) eqn:E.
  - apply Rltb_spec in E. split; [lra|]. rewrite <- C. replace (2 * PI - m) with (- m + 2 * INR 1 * PI) by (cbn; ring). rewrite cos_period. apply cos_neg.
  - split; [|exact C]. split; [lra|]. destruct (Rle_or_lt m PI) as [|L]; [assumption|]. rewrite Rltb_t in E by assumption. discriminate.
Qed.
Lemma cos_abs_le x y : Rabs x <= Rabs y -> Rabs y <= PI -> cos y <= cos x.
Proof.
  intros A B. rewrite <- (cos_Rabs x), <- (cos_Rabs y). pose proof (Rabs_pos x). destruct A as [A|A]; [|rewrite A; lra].
  left. apply cos_decreasing_1; lra.
Qed.
Lemma rad_abs la : Rabs la <= 90 -> Rabs (rad la) <= PI / 2.
Proof.
  intros H. pose proof PI_RGT_0 as HP. unfold rad. unfold Rdiv at 1. rewrite !Rabs_mult.
  rewrite (Rabs_right PI) by lra. rewrite (Rabs_right (/ 180)) by lra. nra.
Qed.
Lemma fast_value la1 lo1 la2 lo2 :
  exists m, m = (if Rltb (Rabs (rad la1)) (Rabs (rad la2)) then rad la2 else rad la1) /\
  calc_distance_fast (RF la1) (RF lo1) (RF la2) (RF lo2) Geodetic =
  RF (earth * sqrt (cos m * cos m * wrap (Rabs (rad lo1 - rad lo2)) * wrap (Rabs (rad lo1 - rad lo2)) + (rad la1 - rad la2) * (rad la1 - rad la2))).
Proof.
  eexists. split; [reflexivity|]. cbn [calc_distance_fast]. rewrite !rad_RF. unfold rsub. rewrite !rneg_RF, !radd_RF.
  cbn [rabs rltb rfmod]. rewrite !rneg_RF, !radd_RF.
  unfold wrap. change (rad lo1 - rad lo2) with (rad lo1 + - rad lo2). change (rad la1 - rad la2) with (rad la1 + - rad la2).
  set (x := Rabs (rad lo1 + - rad lo2)). set (w0 := x - 2 * PI * IZR (Int_part (x / (2 * PI)))).
  change (2 * PI + - w0) with (2 * PI - w0). cbn zeta.
  replace (if Rltb PI w0 then RF (2 * PI - w0) else RF w0) with (RF (if Rltb PI w0 then 2 * PI - w0 else w0)) by (destruct (Rltb PI w0); reflexivity).
  replace (if Rltb (Rabs (rad la1)) (Rabs (rad la2)) then RF (rad la2) else RF (rad la1))
    with (RF (if Rltb (Rabs (rad la1)) (Rabs (rad la2)) then rad la2 else rad la1)) by (destruct (Rltb (Rabs (rad la1)) (Rabs (rad la2))); reflexivity).
  set (w := if Rltb PI w0 then 2 * PI - w0 else w0). set (m := if Rltb (Rabs (rad la1)) (Rabs (rad la2)) then rad la2 else rad la1).
  cbn [rcos]. rewrite !rmul_RF, !radd_RF.
  rewrite rsqrt_RF; [rewrite rmul_RF; reflexivity|].
  pose proof (pow2_ge_0 (cos m * w)). pose proof (pow2_ge_0 (rad la1 + - rad la2)). cbn [pow] in *. nra.
Qed.
Lemma fast_approx la1 lo1 la2 lo2 : Rabs la1 <= 90 -> Rabs la2 <= 90 ->
  exists d, calc_distance_fast (RF la1) (RF lo1) (RF la2) (RF lo2) Geodetic = RF d /\ is_approx la1 lo1 la2 lo2 d.
Proof.
  pose proof earth_pos as HE. pose proof PI_RGT_0 as HP. intros H1 H2. destruct (fast_value la1 lo1 la2 lo2) as (m & Hm & ->).
  eexists. split; [reflexivity|]. set (w := wrap _). exists w. split; [apply wrap_gap|].
  set (rr := cos m * cos m * w * w + (rad la1 - rad la2) * (rad la1 - rad la2)).
  assert (Hr : 0 <= rr). { unfold rr. pose proof (pow2_ge_0 (cos m * w)). pose proof (pow2_ge_0 (rad la1 - rad la2)). cbn [pow] in *. nra. }
  split; [apply Rmult_le_pos; [lra|apply R_sqrt.sqrt_pos]|].
  replace (earth * sqrt rr * (earth * sqrt rr)) with (earth * earth * (sqrt rr * sqrt rr)) by ring. rewrite sqrt_sqrt by assumption.
  f_equal. unfold rr.
  assert (C : cos m = Rmin (cos (rad la1)) (cos (rad la2))).
  { apply rad_abs in H1, H2. rewrite Hm. destruct (Rltb (Rabs (rad la1)) (Rabs (rad la2))) eqn:E.
    - apply Rltb_spec in E. rewrite Rmin_right; [reflexivity|]. apply cos_abs_le; lra.
    - rewrite Rmin_left; [reflexivity|]. apply cos_abs_le; [|lra].
      destruct (Rle_or_lt (Rabs (rad la2)) (Rabs (rad la1))) as [|L]; [assumption|]. rewrite Rltb_t in E by assumption. discriminate. }
  rewrite C. ring.
Qed.
Lemma approx_unique la1 lo1 la2 lo2 d d' : is_approx la1 lo1 la2 lo2 d -> is_approx la1 lo1 la2 lo2 d' -> d = d'.
Proof.
  intros (w & Hw & A & B) (w' & Hw' & A' & B'). rewrite (gap_unique _ _ _ _ Hw Hw') in B. assert (d * d = d' * d') by lra.
  destruct (Rtotal_order d d') as [L|[E|L]]; [exfalso; nra|exact E|exfalso; nra].
Qed.
Lemma gap_turns lo1 lo2 w (k : Z) : lon_gap lo1 lo2 w -> lon_gap (lo1 + 360 * IZR k) lo2 w.
Proof.
  intros [A B]. split; [exact A|]. rewrite B.
  replace (rad (lo1 + 360 * IZR k) - rad lo2) with ((rad lo1 - rad lo2) - 2 * PI * IZR (- k)); [rewrite cos_shift; reflexivity|].
  rewrite opp_IZR. unfold rad. field.
Qed.
Lemma sq_eq a b : 0 <= a -> 0 <= b -> a * a = b * b -> a = b.
Proof. intros A B H. destruct (Rtotal_order a b) as [L|[E|L]]; [exfalso; nra|exact E|exfalso; nra]. Qed.
Lemma c93_fast : forall la1 lo1 la2 lo2, Rabs la1 <= 90 -> Rabs la2 <= 90 ->
  exists d, calc_distance_fast (RF la1) (RF lo1) (RF la2) (RF lo2) Geodetic = RF d /\ is_approx la1 lo1 la2 lo2 d /\
  calc_distance_fast (RF la2) (RF lo2) (RF la1) (RF lo1) Geodetic = RF d /\
  (forall k, calc_distance_fast (RF la1) (RF (lo1 + 360 * IZR k)) (RF la2) (RF lo2) Geodetic = RF d) /\
  (lo1 = lo2 \/ la1 = 0 /\ la2 = 0 -> calc_distance (RF la1) (RF lo1) (RF la2) (RF lo2) Geodetic = RF d).
Proof.
  pose proof earth_pos as HE. pose proof PI_RGT_0 as HP.
  intros la1 lo1 la2 lo2 H1 H2. destruct (fast_approx la1 lo1 la2 lo2 H1 H2) as (d & Ed & Hd). exists d.
  split; [exact Ed|]. split; [exact Hd|]. split; [|split].
  - destruct (fast_approx la2 lo2 la1 lo1 H2 H1) as (d' & -> & (w & [A B] & C & D)). f_equal. eapply approx_unique; [|exact Hd].
    exists w. split; [split; [exact A|rewrite B; rewrite <- cos_neg; f_equal; ring]|]. split; [exact C|].
    rewrite D, Rmin_comm. ring.
  - intros k. destruct (fast_approx la1 (lo1 + 360 * IZR k) la2 lo2 H1 H2) as (d' & -> & H'). f_equal. eapply approx_unique; [exact H'|].
    destruct Hd as (w & Hw & C & D). exists w. split; [apply gap_turns; exact Hw|auto].
  - intros Hc. destruct (calc_ok Geodetic la1 lo1 la2 lo2) as (d' & -> & H'). f_equal. cbn in H'.
    apply (arc_unique _ _ _ H'). apply arc_cos. rewrite chord_dot.
    destruct Hd as (w & Hw & C & D). destruct Hc as [<- | [-> ->]].
    + assert (w = 0) as ->. { eapply gap_unique; [exact Hw|]. split; [lra|]. replace (rad lo1 - rad lo1) with 0 by ring. reflexivity. }
      assert (Ed' : d = earth * Rabs (rad la1 - rad la2)).
      { apply sq_eq; [assumption|apply Rmult_le_pos; [lra|apply Rabs_pos]|]. rewrite D.
        replace (earth * Rabs (rad la1 - rad la2) * (earth * Rabs (rad la1 - rad la2))) with (earth * earth * (Rabs (rad la1 - rad la2) * Rabs (rad la1 - rad la2))) by ring.
        rewrite <- Rabs_mult, (Rabs_right (_ * _)) by (apply Rle_ge, (Rle_0_sqr (rad la1 - rad la2))). ring. }
      apply rad_abs in H1, H2. pose proof (Rabs_triang (rad la1) (- rad la2)) as T. rewrite Rabs_Ropp in T. change (rad la1 + - rad la2) with (rad la1 - rad la2) in T.
      split. { rewrite Ed'. pose proof (Rabs_pos (rad la1 - rad la2)). split; [apply Rmult_le_pos; lra|]. rewrite Rmult_comm. apply Rmult_le_compat_r; lra. }
      replace (d / earth) with (Rabs (rad la1 - rad la2)) by (rewrite Ed'; field; lra). rewrite cos_Rabs, cos_minus.
      f_equal. unfold dot, sx, sy, sz. pose proof (sin2_cos2 (rad lo1)) as S. unfold Rsqr in S.
      replace (cos (rad la1) * cos (rad lo1) * (cos (rad la2) * cos (rad lo1)) + cos (rad la1) * sin (rad lo1) * (cos (rad la2) * sin (rad lo1)))
        with (cos (rad la1) * cos (rad la2) * (sin (rad lo1) * sin (rad lo1) + cos (rad lo1) * cos (rad lo1))) by ring. rewrite S. ring.
    + assert (Z0 : rad 0 = 0) by (unfold rad; field). rewrite Z0, cos_0 in D. rewrite Rmin_left in D by lra.
      destruct Hw as [Rw Cw].
      assert (Ed' : d = earth * w). { apply sq_eq; [assumption|apply Rmult_le_pos; lra|]. rewrite D. ring. }
      split. { rewrite Ed'. split; [apply Rmult_le_pos; lra|]. rewrite Rmult_comm. apply Rmult_le_compat_r; lra. }
      replace (d / earth) with w by (rewrite Ed'; field; lra). rewrite Cw, cos_minus.
      f_equal. unfold dot, sx, sy, sz. rewrite Z0, cos_0, sin_0. ring.
Qed.
Lemma c93_plane : forall a b c d, calc_distance_fast a b c d Cartesian = calc_distance a b c d Cartesian.
Proof. reflexivity. Qed.
Lemma c93_points : forall p q,
  (p_type p <> p_type q -> calc_distance_points p q = Throw RuntimeError) /\
  (p_type p = p_type q -> calc_distance_points p q = Ok (calc_distance (v2r (p_lat p)) (v2r (p_lon p)) (v2r (p_lat q)) (v2r (p_lon q)) (p_type p))).
Proof.
  intros p q. unfold calc_distance_points. destruct (p_type p), (p_type q); cbn; split; intros H; try reflexivity; try congruence.
Qed.
