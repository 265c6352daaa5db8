(** C54 (partial), C56 and C74-C78. *)
From Verif Require Import Base ListLib RBase P_RBase M_Geo S_Geo M_Struct S_Struct P_Struct P_StructA.
From Coq Require Import Lra Psatz.

(** ** C54, what holds *)
Lemma level_factor k len x y : k <> Linear -> level len (diff x y) -> factor k len (diff x y) = 1%R /\ factor k len (diff y x) = 1%R.
Proof.
  intros K. unfold level. destruct x, y; cbn; try tauto. intros [E|[E|E]]; [discriminate| |].
  - subst. destruct (Req_EM_T 0 0); [auto|tauto].
  - injection E as E. destruct (Req_EM_T len 0); [auto|]. replace (qr q0 - qr q)%R with 0%R by lra. rewrite E.
    unfold Rdiv. rewrite Rmult_0_l, shape_0; auto.
Qed.
Lemma cress_0 : cress 0 = 1%R. Proof. unfold cress. destruct (Rlt_dec 0 1); [field|lra]. Qed.
Lemma cress_bounds u : (-1 <= u)%R -> (0 <= cress u <= 1)%R.
Proof.
  intros H. unfold cress. destruct (Rlt_dec u 1); [|lra]. assert (0 < 1 + u * u)%R by nra.
  split; [apply Rmult_le_pos; [nra|left; apply Rinv_0_lt_compat; auto]|].
  apply (Rmult_le_reg_r (1 + u * u)); auto. unfold Rdiv. rewrite Rmult_assoc, Rinv_l; nra.
Qed.
Lemma cress_even u : (-1 <= u <= 1)%R -> cress (- u) = cress u.
Proof.
  intros H. unfold cress. destruct (Rlt_dec (- u) 1), (Rlt_dec u 1); try lra.
  - f_equal; [|f_equal]; ring.
  - assert (u = 1)%R as -> by lra. lra.
  - assert (u = -1)%R as -> by lra. lra.
Qed.
(** the difference is missing, its scale is 0 or it is no larger than the scale *)
Lemma cfactor_ok len x y : (0 <= len)%R -> level len (diff x y) \/ (exists e, diff x y = Some e /\ (Rabs e <= len)%R) ->
  (0 <= cfactor len (diff x y) <= 1)%R /\ cfactor len (diff y x) = cfactor len (diff x y).
Proof.
  intros L H. destruct x, y; cbn; try (split; [lra|auto]). destruct (Req_EM_T len 0) as [E|N]; [split; [lra|auto]|].
  set (e := (qr q - qr q0)%R) in *.
  assert (Rabs e <= len)%R as A.
  { destruct H as [[H|[H|H]]|(e' & H & A)]; [discriminate|tauto| |]; cbn in H; injection H as H; subst; auto. unfold e. rewrite H, Rabs_R0. auto. }
  replace (qr q0 - qr q)%R with (- e)%R by (unfold e; ring). clearbody e.
  assert (P : (0 < len)%R) by lra. assert (IV := Rinv_0_lt_compat _ P).
  assert (-1 <= e / len <= 1)%R.
  { assert (- len <= e <= len)%R by (revert A; unfold Rabs; destruct (Rcase_abs e); lra). unfold Rdiv. split; apply (Rmult_le_reg_r len); auto; rewrite Rmult_assoc, Rinv_l by auto; lra. }
  split; [apply cress_bounds; lra|]. replace (- e / len)%R with (- (e / len))%R by (field; auto). apply cress_even. auto.
Qed.
Lemma c54_partial : forall (G : geo) h v w, (0 < h)%Qc -> (0 <= v)%Qc -> (0 <= w)%Qc ->
  (forall k hmax, k = Soar \/ k = Toar -> cutoff_ok hmax ->
     exists S, mk_base k (Fin h) (Fin v) (Fin w) hmax = Ok S /\ forall p q d, apart p q d ->
       level (qr v) (diff (p_elev p) (p_elev q)) -> level (qr w) (diff (p_laf p) (p_laf q)) ->
       exists c, corr G S p q = Ok (RF c) /\ corr G S q p = Ok (RF c) /\ (0 <= c <= 1)%R) /\
  (exists S, mk_cressman (Fin h) (Fin v) (Fin w) = Ok S /\ forall p q d, apart p q d ->
     (level (qr v) (diff (p_elev p) (p_elev q)) \/ exists e, diff (p_elev p) (p_elev q) = Some e /\ (Rabs e <= qr v)%R) ->
     (level (qr w) (diff (p_laf p) (p_laf q)) \/ exists e, diff (p_laf p) (p_laf q) = Some e /\ (Rabs e <= qr w)%R) ->
     exists c, corr G S p q = Ok (RF c) /\ corr G S q p = Ok (RF c) /\ (0 <= c <= 1)%R).
Proof.
  intros G h v w H V W. assert (H0 := Qclt_le_weak _ _ H). pose proof (qr_pos h H) as H'.
  pose proof (qr_nonneg v V). pose proof (qr_nonneg w W). split.
  - intros k hmax K M. assert (NL : k <> Linear) by (destruct K; subst; discriminate).
    exists (base_of k h v w hmax). split; [apply mk_base_ok; auto|]. intros p q d A E1 E2.
    destruct (straight_apart _ _ _ A) as (_ & D0).
    destruct (soar_toar_corr G k h v w hmax d p q NL A) as (b & C1 & C2). exists (if b then 0 else corr3 k (qr h) (qr v) (qr w) d p q)%R.
    split; [auto|]. rewrite C2. unfold corr3.
    destruct (level_factor k _ _ _ NL E1) as (-> & ->). destruct (level_factor k _ _ _ NL E2) as (-> & ->). split; [destruct b; reflexivity|].
    destruct b; [lra|]. cbn [factor]. destruct (Req_EM_T (qr h) 0); [lra|].
    assert (0 <= d / qr h)%R by (apply Rmult_le_pos; [auto|left; apply Rinv_0_lt_compat; auto]).
    pose proof (shape_pos k _ NL H3). pose proof (shape_le1 k _ NL H3). lra.
  - exists (SCressman (Fin h) (Fin v) (Fin w)). split; [apply mk_cressman_ok; auto|]. intros p q d A E1 E2.
    destruct (straight_apart _ _ _ A) as (S1 & D0). destruct (straight_apart _ _ _ (apart_sym _ _ _ A)) as (S2 & _).
    cbn [corr]. rewrite S1, S2. cbn [v2r]. rewrite !product_cressman by lra.
    destruct (cfactor_ok _ _ _ H1 E1) as (B1 & Y1). destruct (cfactor_ok _ _ _ H2 E2) as (B2 & Y2).
    rewrite Y1, Y2. eexists. split; [reflexivity|]. split; [reflexivity|].
    assert (0 <= cfactor (qr h) (Some d) <= 1)%R.
    { cbn. destruct (Req_EM_T (qr h) 0); [lra|]. apply cress_bounds. apply Rle_trans with 0%R; [lra|].
      apply Rmult_le_pos; [auto|left; apply Rinv_0_lt_compat; auto]. }
    set (a := cfactor (qr h) _) in *. set (b := cfactor (qr v) _) in *. set (c := cfactor (qr w) _) in *. clearbody a b c.
    assert (0 <= a * b <= 1)%R by nra. nra.
Qed.

(** ** C74 *)
Lemma exp_1p_strict u : (0 < u)%R -> (1 + u < exp u)%R. Proof. intros. apply exp_ineq1. lra. Qed.
Lemma exp_3_strict u : (0 < u)%R -> (1 + u + u * u / 3 < exp u)%R.
Proof.
  intros U. assert (E : exp u = (exp (u / 3) * exp (u / 3) * exp (u / 3))%R).
  { rewrite <- !exp_plus. f_equal. field. }
  pose proof (exp_1p (u / 3) ltac:(lra)) as B. rewrite E. set (e := exp (u / 3)) in *. clearbody e.
  remember (u / 3)%R as t eqn:Et. assert (T : (0 < t)%R) by lra. assert (u = 3 * t)%R as -> by lra. clear E Et U.
  assert ((1 + t) * (1 + t) <= e * e)%R by nra.
  assert ((1 + t) * (1 + t) * (1 + t) <= e * e * e)%R by nra.
  assert (0 < t * (t * t))%R by (apply Rmult_lt_0_compat; nra). lra.
Qed.
(** m_min_rho of Soar and Toar is the shape at hmax/h *)
Lemma min_rho_st k h m : k = Soar \/ k = Toar -> (0 < h)%R -> min_rho_of k (RF h) (RF m) = RF (shape k (m / h)).
Proof.
  intros K H. unfold min_rho_of, rz. cbn [r_valid rneg]. destruct K as [-> | ->]; rewrite !rdiv_RF by lra; cbn [rmul radd rexp shape]; rewrite ?rdiv_RF by lra; cbn [rmul radd rexp];
  f_equal; f_equal; f_equal; field; lra.
Qed.
(** localization distance of Soar and Toar in terms of l = -log(min_rho) *)
Definition loc_st (k : kind) (l : R) : R := match k with Soar => (l + ln l)%R | _ => (l + ln l + 1 / 2 * ln l)%R end.
Lemma loc_h_st k m h : k = Soar \/ k = Toar -> (0 < m < 1)%R -> loc_h k (RF m) (RF h) = RF (loc_st k (- ln m) * h).
Proof.
  intros K M. assert (ln m < 0)%R by (rewrite <- ln_1; apply ln_increasing; lra).
  destruct K as [-> | ->]; unfold loc_h, half_r; rewrite rlog_RF by lra; cbn [rneg]; rewrite rlog_RF by lra; reflexivity.
Qed.
Lemma shape_lt1_st k u : k = Soar \/ k = Toar -> (0 < u)%R -> (shape k u < 1)%R.
Proof.
  intros K U. destruct K as [-> | ->]; cbn; rewrite exp_Ropp; pose proof (exp_pos u); apply (Rmult_lt_reg_r (exp u)); auto; rewrite Rmult_assoc, Rinv_l by lra.
  - pose proof (exp_1p_strict u U). lra.
  - pose proof (exp_3_strict u U). lra.
Qed.
Lemma ln_half : (ln (1 / 2) <= - (1 / 2))%R.
Proof.
  rewrite <- (ln_exp (- (1 / 2))). left. apply ln_increasing; [lra|]. rewrite exp_Ropp.
  assert (exp (1 / 2) < 2)%R.
  { assert (exp (1 / 2) * exp (1 / 2) <= 3)%R. { rewrite <- exp_plus. replace (1 / 2 + 1 / 2)%R with 1%R by field. apply exp_le_3. }
    pose proof (exp_pos (1 / 2)). nra. }
  pose proof (exp_pos (1 / 2)). replace (1 / 2)%R with (/ 2)%R at 1 by field. apply Rinv_lt_contravar; [apply Rmult_lt_0_compat; [|lra]|]; auto.
Qed.
Lemma loc_negative k : k = Soar \/ k = Toar -> (loc_st k (- ln (shape k (1 / 2))) < 0)%R.
Proof.
  intros K. set (l := (- ln (shape k (1 / 2)))%R).
  assert (NL : k <> Linear) by (destruct K; subst; discriminate).
  assert (S0 := shape_pos k (1 / 2) NL ltac:(lra)). assert (S1 := shape_lt1_st k (1 / 2) K ltac:(lra)).
  assert (L0 : (0 < l)%R). { unfold l. assert (ln (shape k (1 / 2)) < 0)%R; [|lra]. rewrite <- ln_1. apply ln_increasing; auto. }
  assert (L1 : (l < 1 / 2)%R).
  { unfold l. assert (- (1 / 2) < ln (shape k (1 / 2)))%R; [|lra]. rewrite <- (ln_exp (- (1 / 2))). apply ln_increasing; [apply exp_pos|].
    pose proof (exp_pos (- (1 / 2))). destruct K as [-> | ->]; cbn [shape]; lra. }
  assert (ln l < - (1 / 2))%R. { apply Rlt_le_trans with (ln (1 / 2)); [apply ln_increasing; auto|apply ln_half]. }
  destruct K as [-> | ->]; cbn; lra.
Qed.
Lemma c74_refuted : forall k, k = Soar \/ k = Toar ->
  (exists S, mk_base k (fz 2) (fz 0) (fz 0) (fz 1) = Ok S /\
     forall G p, has_place p -> corr G S p p = Ok (RF 0) /\ exists L, loc_dist G S p = Ok (RF L) /\ (L < 0)%R) /\
  (exists S L, mk_base k (fz 1) (fz 0) (fz 0) MV = Ok S /\ (forall G p, loc_dist G S p = Ok (RF L)) /\ (0 < L)%R /\
     (13 / 10000 < shape k L)%R).
Proof.
  intros k K. assert (NL : k <> Linear) by (destruct K; subst; discriminate).
  split.
  - exists (base_of k (qz 2) (qz 0) (qz 0) (fz 1)). split.
    { apply mk_base_ok; try (apply qz_nonneg; lia). right. eexists. split; [reflexivity|]. apply qz_nonneg; lia. }
    intros G p (x & y & z & A).
    assert (EL : loc_h k (min_rho_of k (RF (qr (qz 2))) (v2r (fz 1))) (RF (qr (qz 2))) = RF (loc_st k (- ln (shape k (1 / 2))) * 2)).
    { unfold fz. cbn [v2r]. rewrite !qr_z. rewrite min_rho_st by (auto; lra). apply loc_h_st; auto. split; [apply shape_pos|apply shape_lt1_st]; auto; lra. }
    pose proof (loc_negative k K) as N. split.
    + rewrite (corr_formula _ _ _ _ _ _ _ _ _ _ NL EL (apart_refl _ _ _ _ A)). destruct (Rlt_dec _ 0) as [D|D]; [auto|lra].
    + eexists. split; [rewrite loc_formula, EL; reflexivity|lra].
  - exists (base_of k (qz 1) (qz 0) (qz 0) MV), (Ls k). split; [apply mk_base_ok; try (apply qz_nonneg; lia); left; auto|].
    split. { intros G p. rewrite loc_formula. rewrite loc_default_st by auto. rewrite qr_z. do 2 f_equal. ring. }
    split; [apply Ls_pos|].
    pose proof ell_gt1 as E1. pose proof ln_ell as E2.
    assert (EX : exp (- ell) = (13 / 10000)%R). { unfold ell. rewrite Ropp_involutive. apply exp_ln. lra. }
    destruct K as [-> | ->]; cbn [shape Ls].
    + replace (- (ell + ln ell))%R with (- ell + - ln ell)%R by ring. rewrite exp_plus, EX, (exp_Ropp (ln ell)), exp_ln by lra.
      assert (0 < / ell)%R by (apply Rinv_0_lt_compat; lra). assert (ell * / ell = 1)%R by (apply Rinv_r; lra).
      set (i := (/ ell)%R) in *. clearbody i. nra.
    + (* exp(-L) = rho / (ell * sqrt ell); (1 + L + L^2/3) > ell * sqrt ell *)
      assert (SQ : (0 < sqrt ell)%R) by (apply sqrt_lt_R0; lra).
      assert (HL : exp (1 / 2 * ln ell) = sqrt ell).
      { apply Rsqr_inj; [left; apply exp_pos|lra|]. unfold Rsqr. rewrite <- exp_plus, sqrt_sqrt by lra.
        replace (1 / 2 * ln ell + 1 / 2 * ln ell)%R with (ln ell) by field. apply exp_ln. lra. }
      replace (- (ell + ln ell + 1 / 2 * ln ell))%R with (- ell + (- ln ell + - (1 / 2 * ln ell)))%R by ring.
      rewrite !exp_plus, EX, !exp_Ropp, HL, exp_ln by lra.
      assert (P : (0 < ell * sqrt ell)%R) by nra. rewrite <- Rinv_mult.
      set (L := (ell + ln ell + 1 / 2 * ln ell)%R) in *.
      assert (Hs : (sqrt ell * sqrt ell = ell)%R) by (apply sqrt_sqrt; lra).
      assert (S1 : (1 < sqrt ell)%R) by (rewrite <- sqrt_1; apply sqrt_lt_1; lra).
      assert (B : (ell * sqrt ell < 1 + L + L * L / 3)%R).
      { assert (ell < L)%R by (unfold L; lra). clearbody L. set (s := sqrt ell) in *. clearbody s.
        assert (ell * ell < L * L)%R by nra.
        (* ell * s <= 1 + ell + ell^2/3 because (with e = s^2)  s^3 <= 1 + s^2 + s^4/3 *)
        assert (s * s * s <= 1 + s * s + s * s * (s * s) / 3)%R.
        { assert (0 <= (s * s) * ((s / 2 - 1) * (s / 2 - 1)))%R by (apply Rmult_le_pos; apply Rle_0_sqr). nra. }
        rewrite Hs in *. nra. }
      assert (0 < / (ell * sqrt ell))%R by (apply Rinv_0_lt_compat; auto). assert (ell * sqrt ell * / (ell * sqrt ell) = 1)%R by (apply Rinv_r; lra).
      set (i := (/ (ell * sqrt ell))%R) in *. set (m := (ell * sqrt ell)%R) in *. set (t := (1 + L + L * L / 3)%R) in *. clearbody i m t L.
      assert (1 < t * i)%R by nra. nra.
Qed.
(** what holds: the correlation is the uncut product up to the localization distance and 0 beyond it *)
Lemma c74_partial : forall (G : geo) k h v w hmax, k = Soar \/ k = Toar -> (0 < h)%Qc -> (0 <= v)%Qc -> (0 <= w)%Qc ->
  hmax = NaN \/ (exists m, hmax = Fin m /\ (0 < m)%Qc) ->
  exists S L, mk_base k (Fin h) (Fin v) (Fin w) hmax = Ok S /\ (forall p, loc_dist G S p = Ok (RF L)) /\
  (forall p q d, apart p q d -> (L < d)%R -> corr G S p q = Ok (RF 0)) /\
  (forall p q d, apart p q d -> (d <= L)%R ->
     corr G S p q = Ok (RF (shape k (d / qr h) * factor k (qr v) (diff (p_elev p) (p_elev q))
                                               * factor k (qr w) (diff (p_laf p) (p_laf q))))).
Proof.
  intros G k h v w hmax K H V W M. assert (NL : k <> Linear) by (destruct K; subst; discriminate).
  assert (H0 := Qclt_le_weak _ _ H). pose proof (qr_pos h H) as H'.
  assert (exists L, loc_h k (min_rho_of k (RF (qr h)) (v2r hmax)) (RF (qr h)) = RF L) as (L & EL).
  { destruct M as [-> | (m & -> & M)]; [eexists; apply loc_default_st; auto|]. cbn [v2r]. rewrite min_rho_st by auto. eexists. apply loc_h_st; auto.
    pose proof (qr_pos m M). assert (0 < qr m / qr h)%R by (apply Rdiv_lt_0_compat; auto).
    split; [apply shape_pos|apply shape_lt1_st]; auto; lra. }
  exists (base_of k h v w hmax), L. split.
  { apply mk_base_ok; auto. destruct M as [-> | (m & -> & M)]; [left|right; exists m; split; [|apply Qclt_le_weak]]; auto. }
  split; [intros p; rewrite loc_formula, EL; auto|].
  split; intros p q d A D; rewrite (corr_formula G k h v w _ _ d p q NL EL A); destruct (Rlt_dec L d); auto; try lra.
  unfold corr3. cbn [factor]. destruct (Req_EM_T (qr h) 0); [lra|reflexivity].
Qed.
