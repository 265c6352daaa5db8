(** Distances between two locations: C93. *)
From Coq Require Import Reals Lra.
From Verif Require Import Base RBase M_Geo S_Geo M_Dist S_Dist P_Dist.
Local Open Scope R_scope.

(** C93 *)
Theorem C93_distance : forall t la1 lo1 la2 lo2 la3 lo3,
  exists d12 d23 d13,
  calc_distance (RF la1) (RF lo1) (RF la2) (RF lo2) t = RF d12 /\ is_distance t la1 lo1 la2 lo2 d12 /\
  calc_distance (RF la2) (RF lo2) (RF la1) (RF lo1) t = RF d12 /\
  calc_distance (RF la2) (RF lo2) (RF la3) (RF lo3) t = RF d23 /\
  calc_distance (RF la1) (RF lo1) (RF la3) (RF lo3) t = RF d13 /\
  0 <= d12 /\ (d12 = 0 <-> same_place t la1 lo1 la2 lo2) /\ d13 <= d12 + d23 /\
  (t = Geodetic -> d12 <= PI * earth /\ (d12 <= d13 <-> chord2 la1 lo1 la2 lo2 <= chord2 la1 lo1 la3 lo3)).
Proof. exact c93_all. Qed.
Print Assumptions C93_distance.
Theorem C93_approximate_distance : forall la1 lo1 la2 lo2, Rabs la1 <= 90 -> Rabs la2 <= 90 ->
  exists d, calc_distance_fast (RF la1) (RF lo1) (RF la2) (RF lo2) Geodetic = RF d /\ is_approx la1 lo1 la2 lo2 d /\
  calc_distance_fast (RF la2) (RF lo2) (RF la1) (RF lo1) Geodetic = RF d /\
  (forall k, calc_distance_fast (RF la1) (RF (lo1 + 360 * IZR k)) (RF la2) (RF lo2) Geodetic = RF d) /\
  (lo1 = lo2 \/ la1 = 0 /\ la2 = 0 -> calc_distance (RF la1) (RF lo1) (RF la2) (RF lo2) Geodetic = RF d).
Proof. exact c93_fast. Qed.
Print Assumptions C93_approximate_distance.
Theorem C93_approximate_plane : forall a b c d, calc_distance_fast a b c d Cartesian = calc_distance a b c d Cartesian.
Proof. exact c93_plane. Qed.
Print Assumptions C93_approximate_plane.
Theorem C93_point_objects : forall p q,
  (p_type p <> p_type q -> calc_distance_points p q = Throw RuntimeError) /\
  (p_type p = p_type q -> calc_distance_points p q = Ok (calc_distance (v2r (p_lat p)) (v2r (p_lon p)) (v2r (p_lat q)) (v2r (p_lon q)) (p_type p))).
Proof. exact c93_points. Qed.
Print Assumptions C93_point_objects.
Example C93_plane_example : calc_distance (RF 0) (RF 0) (RF 3) (RF 4) Cartesian = RF 5.
Proof.
  destruct (c93_all Cartesian 0 0 3 4 0 0) as (d & _ & _ & -> & (H0 & H1) & _). f_equal. unfold plane2 in H1.
  apply Rsqr_inj; [lra|lra|]. unfold Rsqr. lra.
Qed.
(** a quarter of the equator, exactly and approximately *)
Example C93_sphere_example : calc_distance (RF 0) (RF 0) (RF 0) (RF 90) Geodetic = RF (PI * earth / 2) /\
  calc_distance_fast (RF 0) (RF 0) (RF 0) (RF 90) Geodetic = RF (PI * earth / 2).
Proof.
  destruct (c93_fast 0 0 0 90) as (d & F & _ & _ & _ & K); [rewrite Rabs_R0; lra|rewrite Rabs_R0; lra|].
  destruct (c93_all Geodetic 0 0 0 90 0 0) as (d' & _ & _ & E & D & _). rewrite F. rewrite K in E by auto. injection E as ->. rewrite K by auto.
  assert (d' = PI * earth / 2) as ->; [|auto]. apply arc_cos in D as [R D]. pose proof earth_pos as HE. pose proof PI_RGT_0 as HP.
  assert (C : cos (d' / earth) = 0).
  { unfold chord2, sx, sy, sz, rad in D. replace (0 * PI / 180) with 0 in D by field. replace (90 * PI / 180) with (PI / 2) in D by field.
    rewrite cos_0, sin_0, cos_PI2, sin_PI2 in D. assert (0 < earth ^ 2) by (apply pow_lt; lra).
    apply Rmult_eq_reg_l in D; lra. }
  pose proof (arc_range _ R) as B. destruct (Rtotal_order (d' / earth) (PI / 2)) as [L|[L|L]].
  - pose proof (cos_gt_0 (d' / earth)). lra.
  - replace d' with (d' / earth * earth) by (field; lra). rewrite L. field.
  - pose proof (cos_lt_0 (d' / earth)). lra.
Qed.
