(** C43: bilinear interpolation. *)
From Verif Require Import Base ListLib M_Geo M_Near M_Bilin S_Geo S_Near S_Bilin P_Geo P_Grid P_Points P_Box P_Near.
Local Open Scope Qc_scope.

Lemma vleb_F a b : vleb (Fin a) (Fin b) = true <-> a <= b. Proof. apply vleb_Fin. Qed.
Lemma vsub_F a b : vsub (Fin a) (Fin b) = Fin (a - b). Proof. reflexivity. Qed.
Lemma vmul_F a b : vmul (Fin a) (Fin b) = Fin (a * b). Proof. reflexivity. Qed.
Lemma vadd_F a b : vadd (Fin a) (Fin b) = Fin (a + b). Proof. reflexivity. Qed.
Lemma vneg_F a : vneg (Fin a) = Fin (- a). Proof. reflexivity. Qed.
Lemma vdiv_F a b : b <> 0 -> vdiv (Fin a) (Fin b) = Fin (a / b).
Proof. intros H. unfold vdiv. destruct (qeqb_spec b 0); [contradiction|reflexivity]. Qed.
Lemma snap_unit q : unit_range q -> snap (Fin q) = Fin q.
Proof.
  intros [H0 H1]. unfold snap.
  destruct (vleb (fz 1) (Fin q)) eqn:A.
  - apply vleb_F in A. change (qz 1) with 1 in A. assert (q = 1) by (apply Qcle_antisym; assumption). subst q. vm_compute. reflexivity.
  - cbn [andb]. destruct (vleb (Fin q) (fz 0)) eqn:B; [|reflexivity].
    apply vleb_F in B. change (qz 0) with 0 in B. assert (q = 0) by (apply Qcle_antisym; assumption). subst q. vm_compute. reflexivity.
Qed.
Lemma unit_test s t : (vleb (fz 0) s && vleb s (fz 1) && vleb (fz 0) t && vleb t (fz 1))%bool = true <->
  exists p q, s = Fin p /\ t = Fin q /\ unit_range p /\ unit_range q.
Proof.
  split.
  - intros H. apply andb_prop in H as [H H4]. apply andb_prop in H as [H H3]. apply andb_prop in H as [H1 H2].
    destruct s as [| | |p]; try discriminate. destruct t as [| | |q]; try discriminate.
    apply vleb_F in H1, H2, H3, H4. exists p, q. unfold unit_range. auto.
  - intros (p & q & -> & -> & [A B] & [C D]). rewrite !andb_true_iff. repeat split; apply vleb_F; assumption.
Qed.
Definition tail_value (v0 v1 v2 v3 s t : val) : val :=
  let s' := vsub (fz 1) s in let t' := vsub (fz 1) t in
  vadd (vadd (vadd (vmul (vmul v1 s') t') (vmul (vmul v3 s) t')) (vmul (vmul v0 s') t)) (vmul (vmul v2 s) t).
Lemma tail_blend v0 v1 v2 v3 s t : tail_value (Fin v0) (Fin v1) (Fin v2) (Fin v3) (Fin s) (Fin t) = Fin (blend v0 v1 v2 v3 s (1 - t)).
Proof. unfold tail_value, fz, blend. cbn. f_equal. change (qz 1) with 1. ring. Qed.
(** a successful result is always a blend with weights in [0, 1] *)
Lemma cell_blend E x y x0 x1 x2 x3 y0 y1 y2 y3 v0 v1 v2 v3 r :
  bilinear_cell E x y x0 x1 x2 x3 y0 y1 y2 y3 (Fin v0) (Fin v1) (Fin v2) (Fin v3) = Ok r ->
  exists s u, unit_range s /\ unit_range u /\ r = Fin (blend v0 v1 v2 v3 s u).
Proof.
  unfold bilinear_cell. destruct (if (_ && _)%bool then calc_parallelogram _ _ _ _ _ _ _ _ else calc_general _ _ _ _ _ _ _ _ _ _ _) as [s t]. destruct (negb _) eqn:B; [discriminate|].
  apply negb_false_iff in B. apply unit_test in B as (p & q & Ep & Eq & Up & [U0 U1]). rewrite Ep, Eq. intros K. injection K as <-.
  exists p, (1 - q). split; [exact Up|]. split; [split; qlra|]. exact (tail_blend v0 v1 v2 v3 p q).
Qed.
Lemma mul_nonneg (a b : Qc) : 0 <= a -> 0 <= b -> 0 <= a * b.
Proof. intros. qnra. Qed.
Lemma blend_bounds v0 v1 v2 v3 s u m M : unit_range s -> unit_range u -> m <= v0 <= M -> m <= v1 <= M -> m <= v2 <= M -> m <= v3 <= M ->
  m <= blend v0 v1 v2 v3 s u <= M.
Proof.
  intros [s0 s1] [u0 u1] [a0 A0] [a1 A1] [a2 A2] [a3 A3]. unfold blend.
  assert (w0 : 0 <= (1 - s) * (1 - u)) by (apply mul_nonneg; qlra).
  assert (w2 : 0 <= s * (1 - u)) by (apply mul_nonneg; qlra).
  assert (w1 : 0 <= (1 - s) * u) by (apply mul_nonneg; qlra).
  assert (w3 : 0 <= s * u) by (apply mul_nonneg; qlra).
  split.
  - assert (H : 0 <= (v0 - m) * ((1 - s) * (1 - u)) + (v2 - m) * (s * (1 - u)) + (v1 - m) * ((1 - s) * u) + (v3 - m) * (s * u)).
    { pose proof (mul_nonneg (v0 - m) _ ltac:(qlra) w0). pose proof (mul_nonneg (v1 - m) _ ltac:(qlra) w1).
      pose proof (mul_nonneg (v2 - m) _ ltac:(qlra) w2). pose proof (mul_nonneg (v3 - m) _ ltac:(qlra) w3). 
      set (a := (v0 - m) * _) in *. set (b := (v1 - m) * _) in *. set (c := (v2 - m) * _) in *. set (d := (v3 - m) * _) in *. clearbody a b c d. qlra. }
    replace (v0 * (1 - s) * (1 - u) + v2 * s * (1 - u) + v1 * (1 - s) * u + v3 * s * u) with
      ((v0 - m) * ((1 - s) * (1 - u)) + (v2 - m) * (s * (1 - u)) + (v1 - m) * ((1 - s) * u) + (v3 - m) * (s * u) + m) by ring.
    set (z := _ + (v3 - m) * (s * u)) in *. clearbody z. qlra.
  - assert (H : 0 <= (M - v0) * ((1 - s) * (1 - u)) + (M - v2) * (s * (1 - u)) + (M - v1) * ((1 - s) * u) + (M - v3) * (s * u)).
    { pose proof (mul_nonneg (M - v0) _ ltac:(qlra) w0). pose proof (mul_nonneg (M - v1) _ ltac:(qlra) w1).
      pose proof (mul_nonneg (M - v2) _ ltac:(qlra) w2). pose proof (mul_nonneg (M - v3) _ ltac:(qlra) w3). 
      set (a := (M - v0) * _) in *. set (b := (M - v1) * _) in *. set (c := (M - v2) * _) in *. set (d := (M - v3) * _) in *. clearbody a b c d. qlra. }
    replace (v0 * (1 - s) * (1 - u) + v2 * s * (1 - u) + v1 * (1 - s) * u + v3 * s * u) with
      (M - ((M - v0) * ((1 - s) * (1 - u)) + (M - v2) * (s * (1 - u)) + (M - v1) * ((1 - s) * u) + (M - v3) * (s * u))) by ring.
    set (z := _ + (M - v3) * (s * u)) in *. clearbody z. qlra.
Qed.
(** a parallelogram *)
Lemma cell_parallelogram E x y x0 x1 x2 x3 y0 y1 y2 y3 v0 v1 v2 v3 s u :
  x3 = x1 + x2 - x0 -> y3 = y1 + y2 - y0 -> cross x0 y0 x2 y2 x1 y1 <> 0 -> unit_range s -> unit_range u ->
  x = x0 + s * (x2 - x0) + u * (x1 - x0) -> y = y0 + s * (y2 - y0) + u * (y1 - y0) ->
  bilinear_cell E (Fin x) (Fin y) (Fin x0) (Fin x1) (Fin x2) (Fin x3) (Fin y0) (Fin y1) (Fin y2) (Fin y3) (Fin v0) (Fin v1) (Fin v2) (Fin v3) =
  Ok (Fin (blend v0 v1 v2 v3 s u)).
Proof.
  intros -> -> HK Us Uu -> ->. unfold cross in HK. unfold bilinear_cell.
  assert (V : vleb (vabs (vsub (vmul (vsub (Fin x0) (Fin x1)) (vsub (Fin y2) (Fin (y1 + y2 - y0)))) (vmul (vsub (Fin x2) (Fin (x1 + x2 - x0))) (vsub (Fin y0) (Fin y1))))) (fq (1#10000)) = true).
  { rewrite !vsub_F, !vmul_F, vsub_F. replace ((x0 - x1) * (y2 - (y1 + y2 - y0)) - (x2 - (x1 + x2 - x0)) * (y0 - y1)) with 0 by ring. reflexivity. }
  assert (H : vleb (vabs (vsub (vmul (vsub (Fin (x1 + x2 - x0)) (Fin x1)) (vsub (Fin y2) (Fin y0))) (vmul (vsub (Fin x2) (Fin x0)) (vsub (Fin (y1 + y2 - y0)) (Fin y1))))) (fq (1#10000)) = true).
  { rewrite !vsub_F, !vmul_F, vsub_F. replace ((x1 + x2 - x0 - x1) * (y2 - y0) - (x2 - x0) * (y1 + y2 - y0 - y1)) with 0 by ring. reflexivity. }
  rewrite V, H. cbn [andb].
  set (D := (x1 + x2 - x0 - x1) * (y0 - y1) - (x0 - x1) * (y1 + y2 - y0 - y1)).
  assert (ND : D <> 0). { intros K. apply HK. transitivity (- D); [unfold D; ring|]. rewrite K. reflexivity. }
  assert (P : calc_parallelogram (Fin (x0 + s * (x2 - x0) + u * (x1 - x0))) (Fin (y0 + s * (y2 - y0) + u * (y1 - y0))) (Fin x1) (Fin (x1 + x2 - x0)) (Fin x0) (Fin y1) (Fin (y1 + y2 - y0)) (Fin y0)
     = (Fin s, Fin (1 - u))).
  { unfold calc_parallelogram, fz. rewrite !vsub_F, !vneg_F, !vmul_F, !vsub_F, !vadd_F. fold D. rewrite vdiv_F by exact ND. rewrite !vmul_F. change (qz 1) with 1.
    assert (DE : D = (x2 - x0) * (y0 - y1) - (x0 - x1) * (y2 - y0)) by (unfold D; ring).
    clearbody D. f_equal; f_equal; [transitivity (s * D / D)|transitivity ((1 - u) * D / D)].
    - unfold Qcdiv. rewrite Qcmult_1_l, (Qcmult_comm (/ D)). f_equal. rewrite DE. ring.
    - field. exact ND.
    - unfold Qcdiv. rewrite Qcmult_1_l, (Qcmult_comm (/ D)). f_equal. rewrite DE. ring.
    - field. exact ND. }
  rewrite P. assert (Ut : unit_range (1 - u)) by (destruct Uu; split; qlra). rewrite !snap_unit by assumption.
  rewrite (proj2 (unit_test (Fin s) (Fin (1 - u)))) by (exists s, (1 - u); auto). cbn [negb].
  f_equal. pose proof (tail_blend v0 v1 v2 v3 s (1 - u)) as T. unfold tail_value in T. rewrite T. f_equal. f_equal. ring.
Qed.
(** consequences of the blend formula *)
Lemma blend_corners v0 v1 v2 v3 : blend v0 v1 v2 v3 0 0 = v0 /\ blend v0 v1 v2 v3 0 1 = v1 /\ blend v0 v1 v2 v3 1 0 = v2 /\ blend v0 v1 v2 v3 1 1 = v3.
Proof. unfold blend. repeat split; ring. Qed.
Lemma blend_affine a b c x0 x1 x2 y0 y1 y2 s u :
  let f x y := a + b * x + c * y in
  blend (f x0 y0) (f x1 y1) (f x2 y2) (f (x1 + x2 - x0) (y1 + y2 - y0)) s u = f (x0 + s * (x2 - x0) + u * (x1 - x0)) (y0 + s * (y2 - y0) + u * (y1 - y0)).
Proof. cbn. unfold blend. ring. Qed.

