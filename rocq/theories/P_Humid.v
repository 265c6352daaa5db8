(** Dew point and wet-bulb temperature. *)
From Coq Require Import Reals Lra Lia.
From Verif Require Import RBase RPow P_RBase ListLib M_Diag P_Trans P_Press.
Local Open Scope R_scope.

Definition tc_ (t : R) : R := t + - (27315 / 100).
Definition lne (rh tc : R) : R := ln (rh * (611 / 1000)) + 1763 / 100 * tc / (tc + 24304 / 100).
Definition dewC (L : R) : R := (1169 / 10 + 24304 / 100 * L) / (1678 / 100 + - L).
Lemma tC t : rsub (RF t) (dec 27315 100) = RF (tc_ t). Proof. reflexivity. Qed.
Lemma vapour_RF rh tc : tc + 24304 / 100 <> 0 -> vapour (RF rh) (RF tc) = RF (rh * (611 / 1000) * exp (1763 / 100 * tc / (tc + 24304 / 100))).
Proof. intros H. unfold vapour. rewrite !dec_RF, !rmul_RF, radd_RF, rdiv_RF by exact H. reflexivity. Qed.
Lemma log_vapour rh tc : 0 < rh -> tc + 24304 / 100 <> 0 -> rlog (vapour (RF rh) (RF tc)) = RF (lne rh tc).
Proof.
  intros Hr H. rewrite vapour_RF by exact H. pose proof (exp_pos (1763 / 100 * tc / (tc + 24304 / 100))). rewrite rlog_RF by nra. f_equal. rewrite ln_mult by lra. rewrite ln_exp. reflexivity.
Qed.
Lemma dew_RF e L : rlog e = RF L -> L <> 1678 / 100 -> dew_of e = RF (dewC L).
Proof. intros E H. unfold dew_of. rewrite E, !dec_RF, rmul_RF, radd_RF. unfold rsub. rewrite rneg_RF, radd_RF, rdiv_RF by lra. reflexivity. Qed.
Lemma dewC_form L : L <> 1678 / 100 -> dewC L = 41951112 / 10000 / (1678 / 100 + - L) - 24304 / 100.
Proof. intros H. unfold dewC. field. lra. Qed.
Lemma dewC_mono L L' : L <= L' -> L' < 1678 / 100 -> dewC L <= dewC L'.
Proof.
  intros H H'. rewrite !dewC_form by lra. assert (/ (1678 / 100 + - L) <= / (1678 / 100 + - L')) by (apply Rinv_le_contravar; lra). unfold Rdiv at 1 3. lra.
Qed.
Lemma dewC_gt L : L < 1678 / 100 -> 0 < dewC L + 24304 / 100.
Proof. intros H. rewrite dewC_form by lra. assert (0 < / (1678 / 100 + - L)) by (apply Rinv_0_lt_compat; lra). unfold Rdiv at 1. nra. Qed.

(** the value dew_of returns is a number, +infinity or not a number *)
Lemma dew_kind e : (exists x, dew_of e = RF x) \/ dew_of e = RPInf \/ dew_of e = RNaN.
Proof.
  unfold dew_of. rewrite !dec_RF. destruct (rlog e) as [| | |L].
  - right. right. reflexivity.
  - right. right. unfold rsub. cbn [rneg radd]. unfold rmul. rewrite Reqb_f by lra. destruct (Rltb _ _); reflexivity.
  - right. right. unfold rsub. cbn [rneg radd]. unfold rmul. rewrite Reqb_f by lra. destruct (Rltb _ _); reflexivity.
  - rewrite rmul_RF, radd_RF. unfold rsub. rewrite rneg_RF, radd_RF. destruct (Req_dec (1678 / 100 + - L) 0) as [E|E].
    + right. left. unfold rdiv. rewrite Reqb_t by exact E. rewrite Reqb_f by lra. rewrite Rltb_f by lra. reflexivity.
    + left. rewrite rdiv_RF by exact E. eexists. reflexivity.
Qed.
Lemma c67_dewpoint :
  (forall t rh, exists d, dewpoint (RF t) (RF rh) = RF d /\ d <= t) /\
  (forall t rh, r_valid t = false \/ r_valid rh = false -> dewpoint t rh = RMV).
Proof.
  split.
  - intros t rh. unfold dewpoint. cbn [r_valid andb]. rewrite (dec_RF 27315 100). set (e := vapour _ _). destruct (dew_kind e) as [(x & E)|[E|E]]; rewrite E.
    + rewrite radd_RF. destruct (rleb (RF (x + 27315 / 100)) (RF t)) eqn:C.
      * apply rleb_RF in C. eexists. split; [reflexivity|exact C].
      * exists t. split; [reflexivity|lra].
    + exists t. split; [reflexivity|lra].
    + exists t. split; [reflexivity|lra].
  - intros t rh H. unfold dewpoint. destruct (r_valid t), (r_valid rh); cbn [andb]; try reflexivity. intuition discriminate.
Qed.

(** ** dew point and humidity *)
Lemma lne_bound rh tc : 0 < rh <= 1 -> 0 < tc + 24304 / 100 -> tc <= 4000 -> lne rh tc < 1678 / 100.
Proof.
  intros Hr H1 H2. unfold lne. assert (ln (rh * (611 / 1000)) < 0) by (rewrite <- ln_1; apply ln_increasing; lra).
  assert (1763 / 100 * tc / (tc + 24304 / 100) <= 1678 / 100). { apply Rmult_le_reg_r with (tc + 24304 / 100); [lra|]. unfold Rdiv at 1. rewrite Rmult_assoc, Rinv_l, Rmult_1_r by lra. lra. }
  lra.
Qed.
Lemma dewpoint_formula t rh : 0 < rh <= 1 -> 3011 / 100 < t <= 4000 -> dewpoint (RF t) (RF rh) = RF (Rmin t (dewC (lne rh (tc_ t)) + 27315 / 100)).
Proof.
  intros Hr Ht. assert (T1 : 0 < tc_ t + 24304 / 100) by (unfold tc_; lra). assert (T2 : tc_ t <= 4000) by (unfold tc_; lra). pose proof (lne_bound rh (tc_ t) Hr T1 T2) as B.
  unfold dewpoint. cbn [r_valid andb]. rewrite tC. rewrite (dew_RF _ (lne rh (tc_ t))); [|apply log_vapour; lra|lra]. rewrite dec_RF, radd_RF. unfold Rmin.
  destruct (rleb _ _) eqn:C; [apply rleb_RF in C|]; destruct (Rle_dec t (dewC (lne rh (tc_ t)) + 27315 / 100)) as [D|D].
  - f_equal. lra.
  - reflexivity.
  - reflexivity.
  - exfalso. assert (X : rleb (RF (dewC (lne rh (tc_ t)) + 27315 / 100)) (RF t) = true) by (apply rleb_t; lra). congruence.
Qed.
Lemma lne_mono rh rh' tc : 0 < rh -> rh <= rh' -> lne rh tc <= lne rh' tc.
Proof. intros H H'. unfold lne. destruct (Req_dec rh rh') as [->|N]; [lra|]. assert (ln (rh * (611 / 1000)) < ln (rh' * (611 / 1000))) by (apply ln_increasing; lra). lra. Qed.
Lemma c88_mono t rh rh' : 3011 / 100 < t <= 4000 -> 0 < rh -> rh <= rh' <= 1 ->
  exists d d', dewpoint (RF t) (RF rh) = RF d /\ dewpoint (RF t) (RF rh') = RF d' /\ d <= d'.
Proof.
  intros Ht H H'. rewrite !dewpoint_formula by lra. do 2 eexists. split; [reflexivity|]. split; [reflexivity|].
  assert (D : dewC (lne rh (tc_ t)) <= dewC (lne rh' (tc_ t))). { apply dewC_mono; [apply lne_mono; lra|apply lne_bound; unfold tc_; lra]. }
  apply Rle_min_compat_l. lra.
Qed.
Lemma dry_dew t : 3011 / 100 < t -> dewpoint (RF t) (RF 0) = RF t.
Proof.
  intros Ht. unfold dewpoint. cbn [r_valid andb]. rewrite tC. rewrite vapour_RF by (unfold tc_; lra). set (e := 0 * _ * _). assert (E : e = 0) by (unfold e; ring). rewrite E.
  assert (D : dew_of (RF 0) = RNaN). { unfold dew_of. unfold rlog. rewrite Rltb_f by lra. rewrite Reqb_t by lra. rewrite !dec_RF. unfold rsub. cbn [rneg radd]. unfold rmul. rewrite Reqb_f by lra. destruct (Rltb _ _); reflexivity. }
  rewrite D. reflexivity.
Qed.
(** e^(-x) from below, for the constants *)
Lemma exp_low x (n : nat) : (0 < n)%nat -> -1 < x / INR n -> (1 + x / INR n) ^ n <= exp x.
Proof.
  intros Hn Hx. assert (N : INR n <> 0) by (apply not_0_INR; lia). replace (exp x) with (exp (x / INR n) ^ n).
  - apply pow_incr. split; [lra|]. destruct (Req_dec (x / INR n) 0) as [E|E]; [rewrite E, exp_0; lra|]. left. apply exp_ineq1. exact E.
  - rewrite <- Rpower_pow by apply exp_pos. unfold Rpower. rewrite ln_exp. f_equal. field. exact N.
Qed.
Lemma ln_le_of a b : 0 < a -> a <= exp b -> ln a <= b.
Proof. intros H H'. rewrite <- (ln_exp b). destruct (Req_dec a (exp b)) as [->|N]; [lra|]. left. apply ln_increasing; lra. Qed.
Lemma ln_ge_of a b : exp b <= a -> b <= ln a.
Proof. intros H. rewrite <- (ln_exp b) at 1. destruct (Req_dec a (exp b)) as [->|N]; [lra|]. left. apply ln_increasing; [apply exp_pos|lra]. Qed.
Lemma exp_up x (n : nat) : (0 < n)%nat -> x / INR n < 1 -> exp x <= / ((1 - x / INR n) ^ n).
Proof.
  intros Hn H. assert (Nz : INR n <> 0) by (apply not_0_INR; lia). assert (L : (1 - x / INR n) ^ n <= exp (- x)).
  { replace (1 - x / INR n) with (1 + - x / INR n) by (field; exact Nz). apply exp_low; [exact Hn|]. unfold Rdiv in *. lra. }
  replace (exp x) with (/ exp (- x)) by (rewrite exp_Ropp, Rinv_inv; reflexivity). apply Rinv_le_contravar; [apply pow_lt; lra|exact L].
Qed.
(** drying the air at 10 degrees from 1 percent to 0 raises the dew point *)
Lemma c88_refuted : exists t rh, 250 < t < 310 /\ 0 < rh /\ rh <= 1 /\ exists d d', dewpoint (RF t) (RF 0) = RF d /\ dewpoint (RF t) (RF rh) = RF d' /\ d' < d.
Proof.
  exists (27315 / 100), (1 / 2). split; [lra|]. split; [lra|]. split; [lra|]. rewrite dry_dew by lra. rewrite dewpoint_formula by lra. do 2 eexists. split; [reflexivity|]. split; [reflexivity|].
  assert (L : lne (1 / 2) (tc_ (27315 / 100)) <= -1).
  { unfold lne. replace (tc_ (27315 / 100)) with 0 by (unfold tc_; lra). replace (1763 / 100 * 0 / (0 + 24304 / 100)) with 0 by (unfold Rdiv; ring).
    assert (ln (1 / 2 * (611 / 1000)) <= -1); [|lra]. apply ln_le_of; [lra|]. pose proof (exp_low (-1) 16 ltac:(lia)) as H. replace (INR 16) with 16 in H by (rewrite INR_IZR_INZ; reflexivity). specialize (H ltac:(lra)).
    assert ((1 + -1 / 16) ^ 16 > 1 / 2 * (611 / 1000)) by (cbn [pow]; lra). lra. }
  assert (D : dewC (lne (1 / 2) (tc_ (27315 / 100))) < 0).
  { eapply Rle_lt_trans; [apply dewC_mono; [exact L|lra]|]. unfold dewC. replace (1678 / 100 + - -1) with (1778 / 100) by lra. lra. }
  eapply Rle_lt_trans; [apply Rmin_r|lra].
Qed.

(** ** wet bulb *)
Lemma wetbulb_formula t p rh : 0 < p -> 0 < rh <= 1 -> 3011 / 100 < t <= 4000 ->
  exists w, 0 < w < 1 /\ wetbulb (RF t) (RF p) (RF rh) = RF ((1 - w) * t + w * (dewC (lne rh (tc_ t)) + 27315 / 100)).
Proof.
  intros Hp Hr Ht. assert (T1 : 0 < tc_ t + 24304 / 100) by (unfold tc_; lra). assert (T2 : tc_ t <= 4000) by (unfold tc_; lra). pose proof (lne_bound rh (tc_ t) Hr T1 T2) as B.
  set (g := 66 / 100000 * p / 1000). set (E := rh * (611 / 1000) * exp (1763 / 100 * tc_ t / (tc_ t + 24304 / 100))). set (Td := dewC (lne rh (tc_ t))).
  pose proof (dewC_gt _ B) as P0. fold Td in P0. set (d := 4098 * E / Rpower (Td + 24304 / 100) 2).
  assert (G : 0 < g) by (unfold g; lra). assert (HE : 0 < E) by (unfold E; pose proof (exp_pos (1763 / 100 * tc_ t / (tc_ t + 24304 / 100))); nra).
  pose proof (Rpower_pos (Td + 24304 / 100) 2) as PP. assert (D : 0 < d) by (unfold d; apply Rdiv_lt_0_compat; lra).
  exists (d / (g + d)). split.
  - split; [apply Rdiv_lt_0_compat; lra|]. apply Rmult_lt_reg_r with (g + d); [lra|]. unfold Rdiv. rewrite Rmult_assoc, Rinv_l, Rmult_1_r by lra. lra.
  - unfold wetbulb. rewrite tC. rewrite (dec_RF (-24304) 100). unfold rz. rewrite rleb_f by lra. rewrite rleb_f by lra. cbn [orb r_valid andb].
    rewrite (dew_RF _ (lne rh (tc_ t))); [|apply log_vapour; lra|lra]. fold Td. rewrite vapour_RF by lra. fold E. rewrite !dec_RF, !rmul_RF, (radd_RF Td), (rdiv_RF _ 1000) by lra. fold g. rewrite rpow_pos by exact P0. rewrite rdiv_RF by lra. fold d.
    rewrite !rmul_RF, !radd_RF. cbn [reqb]. rewrite Reqb_f by lra. rewrite rdiv_RF by lra. rewrite radd_RF. f_equal. unfold tc_. field. lra.
Qed.
Lemma c89_between t p rh : 0 < p -> 0 < rh <= 1 -> 3011 / 100 < t <= 4000 ->
  exists w, wetbulb (RF t) (RF p) (RF rh) = RF w /\
    (rh <= 9 / 10 -> t <= 32315 / 100 -> exists d, dewpoint (RF t) (RF rh) = RF d /\ d < w < t).
Proof.
  intros Hp Hr Ht. destruct (wetbulb_formula t p rh Hp Hr Ht) as (w & Hw & E). eexists. split; [exact E|]. intros H9 H50. rewrite dewpoint_formula by lra. eexists. split; [reflexivity|].
  assert (T1 : 0 < tc_ t + 24304 / 100) by (unfold tc_; lra). assert (T2 : tc_ t <= 4000) by (unfold tc_; lra). pose proof (lne_bound rh (tc_ t) Hr T1 T2) as B.
  set (D := dewC (lne rh (tc_ t)) + 27315 / 100).
  assert (HD : D < t).
  { assert (C : ln (rh * (611 / 1000)) <= - (544 / 1000)). { apply ln_le_of; [lra|]. pose proof (exp_low (- (544 / 1000)) 16 ltac:(lia)) as H. replace (INR 16) with 16 in H by (rewrite INR_IZR_INZ; reflexivity). specialize (H ltac:(lra)).
      assert ((1 + - (544 / 1000) / 16) ^ 16 > 9 / 10 * (611 / 1000)) by (cbn [pow]; lra). lra. }
    unfold D, dewC. set (L := lne rh (tc_ t)) in *. assert (LL : L * (tc_ t + 24304 / 100) < 1678 / 100 * tc_ t - 1169 / 10).
    { unfold L, lne. rewrite Rmult_plus_distr_r. assert (Q : 1763 / 100 * tc_ t / (tc_ t + 24304 / 100) * (tc_ t + 24304 / 100) = 1763 / 100 * tc_ t) by (field; lra). rewrite Q. assert (tc_ t <= 50) by (unfold tc_; lra).
      assert (ln (rh * (611 / 1000)) * (tc_ t + 24304 / 100) <= - (544 / 1000) * (tc_ t + 24304 / 100)) by (apply Rmult_le_compat_r; lra). lra. }
    assert ((1169 / 10 + 24304 / 100 * L) / (1678 / 100 + - L) < tc_ t); [|unfold tc_ in *; lra]. apply Rmult_lt_reg_r with (1678 / 100 + - L); [lra|]. replace ((1169 / 10 + 24304 / 100 * L) / (1678 / 100 + - L) * (1678 / 100 + - L)) with (1169 / 10 + 24304 / 100 * L) by (field; lra). lra. }
  rewrite Rmin_right by lra. split; nra.
Qed.
Lemma c89_refuted : exists t p rh w, 250 < t < 310 /\ 0 < p /\ 0 < rh <= 1 /\ wetbulb (RF t) (RF p) (RF rh) = RF w /\ t < w.
Proof.
  exists (29315 / 100), 100000, 1. destruct (wetbulb_formula (29315 / 100) 100000 1 ltac:(lra) ltac:(lra) ltac:(lra)) as (w & Hw & E). eexists. split; [lra|]. split; [lra|]. split; [lra|]. split; [exact E|].
  assert (T : tc_ (29315 / 100) = 20) by (unfold tc_; lra). rewrite T. pose proof (lne_bound 1 20 ltac:(lra) ltac:(lra) ltac:(lra)) as B.
  assert (C : - (508 / 1000) <= ln (1 * (611 / 1000))).
  { apply ln_ge_of. eapply Rle_trans; [apply (exp_up _ 16); [lia|]|]; replace (INR 16) with 16 by (rewrite INR_IZR_INZ; reflexivity); [lra|].
    replace (1 * (611/1000)) with (/ (1000 / 611)) by (field). apply Rinv_le_contravar; [lra|]. cbn [pow]. lra. }
  assert (D : 20 < dewC (lne 1 20)).
  { unfold dewC, lne in *. set (l := ln (1 * (611 / 1000))) in *. set (L := l + 1763 / 100 * 20 / (20 + 24304 / 100)) in *. assert (LL : L * (26304 / 100) = l * (26304 / 100) + 1763 / 100 * 20) by (unfold L; field).
    apply Rmult_lt_reg_r with (1678 / 100 + - L); [lra|]. replace ((1169 / 10 + 24304 / 100 * L) / (1678 / 100 + - L) * (1678 / 100 + - L)) with (1169 / 10 + 24304 / 100 * L) by (field; lra). lra. }
  nra.
Qed.
Lemma c89_missing t p rh : r_valid t = false \/ r_valid p = false \/ r_valid rh = false -> wetbulb t p rh = RMV.
Proof.
  intros H. unfold wetbulb. destruct (rleb _ _ || rleb rh (rz 0))%bool; [reflexivity|]. rewrite dec_RF. destruct t; destruct p; destruct rh; cbn [r_valid rsub rneg radd andb]; try reflexivity. intuition discriminate.
Qed.
Lemma c89_bounds t p rh : rh <= 0 \/ t <= 3011 / 100 -> wetbulb (RF t) (RF p) (RF rh) = RMV.
Proof.
  intros H. unfold wetbulb, rz. rewrite tC, (dec_RF (-24304) 100). destruct H as [H|H].
  - rewrite (rleb_t rh) by lra. rewrite orb_true_r. reflexivity.
  - rewrite (rleb_t (tc_ t)) by (unfold tc_; lra). reflexivity.
Qed.
