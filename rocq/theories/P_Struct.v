(** Proofs about the structure functions: closed forms. *)
From Verif Require Import Base ListLib RBase P_RBase M_Geo M_Struct S_Struct.
From Coq Require Import Lra Psatz.

(** ** distances *)
Lemma straight_apart p q d : apart p q d -> straight p q = RF d /\ (0 <= d)%R.
Proof.
  intros (x1 & y1 & z1 & x2 & y2 & z2 & (A1 & A2 & A3) & (B1 & B2 & B3) & ->).
  split; [|apply R_sqrt.sqrt_pos].
  unfold straight, pdist2. rewrite A1, A2, A3, B1, B2, B3. cbn [vadd vsub vneg vmul v2r].
  rewrite !qr_add, !qr_mul, !qr_add, !qr_opp.
  match goal with |- rsqrt (RF ?a) = RF (sqrt ?b) => replace a with b by ring end.
  apply rsqrt_RF. pose proof (pow2_ge_0 (qr x1 - qr x2)). pose proof (pow2_ge_0 (qr y1 - qr y2)). pose proof (pow2_ge_0 (qr z1 - qr z2)). lra.
Qed.
Lemma apart_sym p q d : apart p q d -> apart q p d.
Proof.
  intros (x1 & y1 & z1 & x2 & y2 & z2 & A & B & ->). exists x2, y2, z2, x1, y1, z1. split; [auto|]. split; [auto|].
  f_equal. ring.
Qed.
Lemma apart_refl p x y z : placed p x y z -> apart p p 0.
Proof.
  intros A. exists x, y, z, x, y, z. split; [auto|]. split; [auto|].
  replace ((qr x - qr x) ^ 2 + (qr y - qr y) ^ 2 + (qr z - qr z) ^ 2)%R with 0%R by ring. symmetry. apply sqrt_0.
Qed.

(** ** the correlation functions *)
Lemma guarded_RF d len f : len <> 0%R -> guarded (RF d) (RF len) f = f.
Proof. intros H. unfold guarded. cbn. rewrite Reqb_f; auto. Qed.
Lemma guarded_0 d f : guarded d (RF 0) f = RF 1.
Proof. unfold guarded. cbn. rewrite Reqb_t; auto. Qed.
Lemma rho_RF k d len : k <> Linear -> len <> 0%R -> rho k (RF d) (RF len) = RF (shape k (d / len)).
Proof.
  intros K H. destruct k; try congruence; cbn [rho]; unfold barnes_rho, soar_rho, toar_rho, powerlaw_rho; rewrite guarded_RF by auto;
    rewrite rdiv_RF by auto; set (u := (d / len)%R); clearbody u.
  - cbn. f_equal. f_equal. field.
  - cbn. f_equal.
  - unfold rz. cbn [rmul radd]. rewrite rdiv_RF by lra. reflexivity.
  - assert (0 <= u * u)%R by nra. unfold half_r, rz. cbn [rmul radd]. rewrite rdiv_RF by nra. cbn [shape]. f_equal. f_equal. field.
Qed.
Lemma rho_0 k d : k <> Linear -> rho k d (RF 0) = RF 1.
Proof. intros K. destruct k; try congruence; cbn [rho]; unfold barnes_rho, soar_rho, toar_rho, powerlaw_rho; apply guarded_0. Qed.
Lemma vsub_diff x1 x2 : is_valid x1 && is_valid x2 = true -> exists e, diff x1 x2 = Some e /\ v2r (vsub x1 x2) = RF e.
Proof.
  destruct x1, x2; try discriminate. intros _. eexists. split; [reflexivity|]. cbn. rewrite qr_add, qr_opp. reflexivity.
Qed.
Lemma diff_none x1 x2 : is_valid x1 && is_valid x2 = false -> diff x1 x2 = None.
Proof. destruct x1, x2; try discriminate; reflexivity. Qed.
Lemma times_factor_RF k r x1 x2 len : k <> Linear ->
  times_factor (rho k) (RF r) x1 x2 (RF len) = RF (r * factor k len (diff x1 x2)).
Proof.
  intros K. unfold times_factor. destruct (is_valid x1 && is_valid x2) eqn:V.
  - destruct (vsub_diff _ _ V) as (e & E1 & E2). rewrite E1, E2. cbn [factor]. destruct (Req_EM_T len 0) as [->|N].
    + rewrite rho_0 by auto. reflexivity.
    + rewrite rho_RF by auto. reflexivity.
  - rewrite (diff_none _ _ V). cbn. f_equal. ring.
Qed.
(** the product of the three factors *)
Definition corr3 (k : kind) (h v w d : R) (p1 p2 : point) : R :=
  (factor k h (Some d) * factor k v (diff (p_elev p1) (p_elev p2)) * factor k w (diff (p_laf p1) (p_laf p2)))%R.
Lemma product_RF k h v w d p1 p2 : k <> Linear ->
  product (rho k) (RF d) p1 p2 (RF h) (RF v) (RF w) = RF (corr3 k h v w d p1 p2).
Proof.
  intros K. unfold product, corr3. cbn [factor]. destruct (Req_EM_T h 0) as [->|N].
  - rewrite rho_0 by auto. rewrite !times_factor_RF by auto. reflexivity.
  - rewrite rho_RF by auto. rewrite !times_factor_RF by auto. reflexivity.
Qed.

(** ** construction *)
Definition base_of (k : kind) (h v w : Qc) (hmax : val) : sfun :=
  SBase {| b_kind := k; b_grid := empty_grid; b_spatial := false;
           b_h := [[Fin h]]; b_v := [[Fin v]]; b_w := [[Fin w]];
           b_min := min_rho_of k (RF (qr h)) (v2r hmax) |}.
Lemma bad_ok q : (0 <= q)%Qc -> negb (is_valid (Fin q)) || vltb (Fin q) (fz 0) = false.
Proof. intros H. cbn [is_valid negb orb vltb fz]. destruct (qltb_spec q (qz 0)) as [L|L]; auto. exfalso. apply (Qcle_not_lt _ _ H). exact L. Qed.
Lemma mk_base_ok k h v w hmax : (0 <= h)%Qc -> (0 <= v)%Qc -> (0 <= w)%Qc -> cutoff_ok hmax ->
  mk_base k (Fin h) (Fin v) (Fin w) hmax = Ok (base_of k h v w hmax).
Proof.
  intros H V W M. unfold mk_base. rewrite !bad_ok by auto.
  assert (is_valid hmax && vltb hmax (fz 0) = false) as ->.
  { destruct M as [->|(q & -> & Q)]; auto. pose proof (bad_ok q Q) as B. cbn in B |- *. exact B. }
  reflexivity.
Qed.
Lemma corr_formula G k h v w hmax L d p1 p2 : k <> Linear ->
  loc_h k (min_rho_of k (RF (qr h)) (v2r hmax)) (RF (qr h)) = RF L -> apart p1 p2 d ->
  corr G (base_of k h v w hmax) p1 p2 =
  Ok (RF (if Rlt_dec L d then 0 else corr3 k (qr h) (qr v) (qr w) d p1 p2)).
Proof.
  intros K E A. destruct (straight_apart _ _ _ A) as (S & _).
  cbn [corr base_of]. unfold corr_base, loc_base. cbn [b_spatial b_h b_v b_w b_kind b_min].
  change (get2 [[Fin h]] 0 0) with (Ok (Fin h)). change (get2 [[Fin v]] 0 0) with (Ok (Fin v)). change (get2 [[Fin w]] 0 0) with (Ok (Fin w)).
  cbn [bind v2r]. rewrite S, E. cbn [rltb]. destruct (Rlt_dec L d) as [D|D].
  - rewrite Rltb_t by auto. reflexivity.
  - rewrite Rltb_f by lra. rewrite product_RF by auto. reflexivity.
Qed.
Lemma loc_formula G k h v w hmax p :
  loc_dist G (base_of k h v w hmax) p = Ok (loc_h k (min_rho_of k (RF (qr h)) (v2r hmax)) (RF (qr h))).
Proof. reflexivity. Qed.

(** ** shapes *)
Lemma exp_le x y : (x <= y)%R -> (exp x <= exp y)%R.
Proof. intros [H| ->]; [left; apply exp_increasing; auto|lra]. Qed.
Lemma shape_0 k : k <> Linear -> shape k 0 = 1%R.
Proof.
  intros K. destruct k; try congruence; cbn; replace (- (0 * 0) / 2)%R with 0%R by field; rewrite ?Ropp_0, ?exp_0; try lra.
Qed.
Lemma shape_pos k u : k <> Linear -> (0 <= u)%R -> (0 < shape k u)%R.
Proof.
  intros K U. destruct k; try congruence; cbn.
  - apply exp_pos.
  - pose proof (exp_pos (-u)). nra.
  - pose proof (exp_pos (-u)). assert (0 < 1 + u + u * u / 3)%R by nra. nra.
  - apply Rdiv_lt_0_compat; nra.
Qed.
Lemma exp_1p u : (0 <= u)%R -> (1 + u <= exp u)%R.
Proof. intros [H| <-]; [left; apply exp_ineq1; lra|rewrite exp_0; lra]. Qed.
Lemma exp_3 u : (0 <= u)%R -> (1 + u + u * u / 3 <= exp u)%R.
Proof.
  intros U. assert (E : exp u = (exp (u / 3) * exp (u / 3) * exp (u / 3))%R).
  { rewrite <- !exp_plus. f_equal. field. }
  pose proof (exp_1p (u / 3) ltac:(lra)) as B. rewrite E. set (e := exp (u / 3)) in *. clearbody e.
  remember (u / 3)%R as t eqn:Et. assert (T : (0 <= t)%R) by lra. assert (u = 3 * t)%R as -> by lra. clear E Et U.
  assert ((1 + t) * (1 + t) <= e * e)%R by nra.
  assert ((1 + t) * (1 + t) * (1 + t) <= e * e * e)%R by nra.
  assert (0 <= t * (t * t))%R by (apply Rmult_le_pos; nra). lra.
Qed.
Lemma shape_le1 k u : k <> Linear -> (0 <= u)%R -> (shape k u <= 1)%R.
Proof.
  intros K U. destruct k; try congruence; cbn.
  - rewrite <- exp_0. apply exp_le. nra.
  - pose proof (exp_1p u U). rewrite exp_Ropp. pose proof (exp_pos u).
    apply (Rmult_le_reg_r (exp u)); auto. rewrite Rmult_assoc, Rinv_l by lra. lra.
  - pose proof (exp_3 u U). rewrite exp_Ropp. pose proof (exp_pos u).
    apply (Rmult_le_reg_r (exp u)); auto. rewrite Rmult_assoc, Rinv_l by lra. lra.
  - apply (Rmult_le_reg_r (1 + u * u / 2)); [nra|]. unfold Rdiv at 1. rewrite Rmult_assoc, Rinv_l; nra.
Qed.
(** the two even shapes *)
Definition evenk (k : kind) : Prop := k = Barnes \/ k = Powerlaw.
Lemma evenk_nl k : evenk k -> k <> Linear. Proof. intros [-> | ->]; discriminate. Qed.
Lemma shape_abs k u : evenk k -> shape k (Rabs u) = shape k u.
Proof.
  intros [-> | ->]; cbn; replace (Rabs u * Rabs u)%R with (u * u)%R; auto; rewrite <- Rabs_mult; symmetry; apply Rabs_right; nra.
Qed.
Lemma shape_mono k u t : evenk k -> (Rabs u <= Rabs t)%R -> (shape k t <= shape k u)%R.
Proof.
  intros K H. assert (u * u <= t * t)%R.
  { pose proof (Rabs_pos u). assert (Rabs u * Rabs u <= Rabs t * Rabs t)%R by nra.
    rewrite <- !Rabs_mult in H1. rewrite !Rabs_right in H1 by nra. auto. }
  destruct K as [-> | ->]; cbn.
  - apply exp_le. lra.
  - apply Rmult_le_compat_l; [lra|]. apply Rinv_le_contravar; nra.
Qed.
Lemma shape_bounds k u : evenk k -> (0 < shape k u <= 1)%R.
Proof.
  intros K. rewrite <- shape_abs by auto. split; [apply shape_pos|apply shape_le1]; auto using evenk_nl, Rabs_pos.
Qed.
Lemma factor_bounds k len o : evenk k -> (0 < factor k len o <= 1)%R.
Proof. intros K. destruct o; cbn; [destruct (Req_EM_T len 0); [lra|apply shape_bounds; auto]|lra]. Qed.
Lemma factor_mono k len a b : evenk k -> no_larger a b -> (factor k len b <= factor k len a)%R.
Proof.
  intros K H. destruct a as [x|], b as [y|]; cbn in *; try tauto; [|lra]. destruct (Req_EM_T len 0) as [E|N]; [lra|].
  apply shape_mono; auto. unfold Rdiv. rewrite !Rabs_mult. apply Rmult_le_compat_r; auto. apply Rabs_pos.
Qed.
Lemma no_larger_sym x y : no_larger (diff x y) (diff y x).
Proof. destruct x, y; cbn; auto. right. apply Rabs_minus_sym. Qed.
Lemma factor_sym k len x y : evenk k -> factor k len (diff x y) = factor k len (diff y x).
Proof. intros K. apply Rle_antisym; apply factor_mono; auto using no_larger_sym. Qed.
Lemma corr3_bounds k h v w d p q : evenk k -> (0 < corr3 k h v w d p q <= 1)%R.
Proof.
  intros K. unfold corr3.
  pose proof (factor_bounds k h (Some d) K). pose proof (factor_bounds k v (diff (p_elev p) (p_elev q)) K). pose proof (factor_bounds k w (diff (p_laf p) (p_laf q)) K).
  set (a := factor k h (Some d)) in *. set (b := factor k v _) in *. set (c := factor k w _) in *.
  assert (0 < a * b <= 1)%R by nra. nra.
Qed.
Lemma corr3_sym k h v w d p q : evenk k -> corr3 k h v w d p q = corr3 k h v w d q p.
Proof. intros K. unfold corr3. rewrite (factor_sym k v (p_elev p)), (factor_sym k w (p_laf p)); auto. Qed.
Lemma corr3_mono k h v w d e p q p' q' : evenk k -> (0 <= d <= e)%R ->
  no_larger (diff (p_elev p) (p_elev q)) (diff (p_elev p') (p_elev q')) ->
  no_larger (diff (p_laf p) (p_laf q)) (diff (p_laf p') (p_laf q')) ->
  (corr3 k h v w e p' q' <= corr3 k h v w d p q)%R.
Proof.
  intros K D A B. unfold corr3.
  pose proof (factor_mono k h (Some d) (Some e) K). cbn [no_larger] in H. rewrite !Rabs_right in H by lra. specialize (H ltac:(lra)).
  pose proof (factor_mono k v _ _ K A). pose proof (factor_mono k w _ _ K B).
  pose proof (factor_bounds k h (Some e) K). pose proof (factor_bounds k v (diff (p_elev p') (p_elev q')) K). pose proof (factor_bounds k w (diff (p_laf p') (p_laf q')) K).
  apply Rmult_le_compat; try lra; [nra|]. apply Rmult_le_compat; lra.
Qed.

(** ** localization of Barnes and power law *)
Lemma loc_barnes_max h m : (0 < h)%R -> (0 <= m)%R ->
  loc_h Barnes (min_rho_of Barnes (RF h) (RF m)) (RF h) = RF m.
Proof.
  intros H M. unfold loc_h, min_rho_of. unfold rz. cbn [r_valid]. rewrite rdiv_RF by lra. cbn [rmul]. rewrite rdiv_RF by lra. cbn [rexp].
  rewrite rlog_RF by apply exp_pos. rewrite ln_exp. cbn [rmul].
  replace (-2 * (m / h * (m / h) / -2))%R with ((m / h) * (m / h))%R by (field; lra).
  assert (0 <= m / h)%R. { apply Rmult_le_pos; auto. left. apply Rinv_0_lt_compat; auto. }
  rewrite rsqrt_RF by nra. rewrite sqrt_square by auto. cbn. f_equal. field. lra.
Qed.
Lemma loc_powerlaw_max h m : (0 < h)%R -> (0 <= m)%R ->
  loc_h Powerlaw (min_rho_of Powerlaw (RF h) (RF m)) (RF h) = RF m.
Proof.
  intros H M. unfold loc_h, min_rho_of. unfold rz, half_r. cbn [r_valid]. rewrite rdiv_RF by lra. cbn [rmul radd].
  assert (U : (0 <= m / h)%R). { apply Rmult_le_pos; auto. left. apply Rinv_0_lt_compat; auto. }
  assert (E : (m = m / h * h)%R) by (field; lra). transitivity (RF (m / h * h)); [|f_equal; auto]. clear E.
  set (u := (m / h)%R) in *. clearbody u.
  assert (P : (0 < 1 + 1 / 2 * (u * u))%R) by nra.
  rewrite rdiv_RF by lra. unfold rsub. cbn [rneg radd rmul].
  assert (0 < / (1 + 1 / 2 * (u * u)))%R by (apply Rinv_0_lt_compat; auto).
  rewrite rdiv_RF by (unfold Rdiv; lra).
  replace (2 * (1 + - (1 / (1 + 1 / 2 * (u * u)))) / (1 / (1 + 1 / 2 * (u * u))))%R with (u * u)%R.
  2:{ field. nra. }
  rewrite rsqrt_RF by nra. rewrite sqrt_square by auto. reflexivity.
Qed.
Lemma ln_small : (ln (13 / 10000) < 0)%R.
Proof. rewrite <- ln_1. apply ln_increasing; lra. Qed.
Definition Lb : R := sqrt (-2 * ln (13 / 10000)).
Definition Lp : R := sqrt (2 * (1 - 13 / 10000) / (13 / 10000)).
Definition cut (k : kind) : R := match k with Barnes => Lb | _ => Lp end.
Lemma loc_default k h m : evenk k -> r_valid m = false -> loc_h k (min_rho_of k (RF h) m) (RF h) = RF (cut k * h).
Proof.
  intros K M. pose proof ln_small. destruct K as [-> | ->]; unfold min_rho_of; rewrite M; unfold loc_h, default_min_rho, rz.
  - rewrite rlog_RF by lra. cbn [rmul]. rewrite rsqrt_RF by lra. reflexivity.
  - unfold rsub. cbn [rmul rneg radd]. rewrite rdiv_RF by lra. rewrite rsqrt_RF by lra. reflexivity.
Qed.
Lemma cut_pos k : (0 < cut k)%R.
Proof. pose proof ln_small. destruct k; cbn; apply sqrt_lt_R0; lra. Qed.
Lemma cut_shape k : evenk k -> shape k (cut k) = (13 / 10000)%R.
Proof.
  pose proof ln_small. intros [-> | ->]; unfold shape, cut, Lb, Lp; rewrite sqrt_sqrt by lra.
  - replace (- (-2 * ln (13 / 10000)) / 2)%R with (ln (13 / 10000)) by field. apply exp_ln. lra.
  - field.
Qed.
Lemma shape_strict k u t : evenk k -> (0 <= u < t)%R -> (shape k t < shape k u)%R.
Proof.
  intros K H. assert (u * u < t * t)%R by nra. destruct K as [-> | ->]; cbn.
  - apply exp_increasing. lra.
  - unfold Rdiv. rewrite !Rmult_1_l. apply Rinv_lt_contravar; [|lra]. apply Rmult_lt_0_compat; nra.
Qed.
(** for both, a cut-off is a nonnegative number *)
Lemma loc_even k h hmax : evenk k -> (0 < h)%R -> (v2r hmax = RNaN \/ exists m, v2r hmax = RF m /\ (0 <= m)%R) ->
  exists L, loc_h k (min_rho_of k (RF h) (v2r hmax)) (RF h) = RF L /\ (0 <= L)%R /\
   (forall m, v2r hmax = RF m -> L = m) /\ (v2r hmax = RNaN -> L = (cut k * h)%R).
Proof.
  intros K H [M|(m & M & P)]; rewrite M.
  - exists (cut k * h)%R. split; [apply loc_default; auto|]. pose proof (cut_pos k). split; [nra|]. split; [discriminate|auto].
  - exists m. split; [destruct K as [-> | ->]; [apply loc_barnes_max|apply loc_powerlaw_max]; auto|]. split; [auto|].
    split; [intros ? [= ->]; auto|discriminate].
Qed.
Lemma cutoff_v2r m : cutoff_ok m -> v2r m = RNaN \/ exists x, v2r m = RF x /\ (0 <= x)%R.
Proof. intros [-> | (q & -> & Q)]; [left; reflexivity|right]. exists (qr q). split; [reflexivity|]. rewrite <- qr_0. apply qr_le; auto. Qed.
