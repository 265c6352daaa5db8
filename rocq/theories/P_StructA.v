(** C53-C56 and C74: correlation and localization of the structure functions. *)
From Verif Require Import Base ListLib RBase P_RBase M_Geo S_Geo M_Struct S_Struct P_Struct.
From Coq Require Import Lra Psatz.

Lemma qr_pos q : (0 < q)%Qc -> (0 < qr q)%R. Proof. intros H. rewrite <- qr_0. apply qr_lt; auto. Qed.
Lemma qr_nonneg q : (0 <= q)%Qc -> (0 <= qr q)%R. Proof. intros H. rewrite <- qr_0. apply qr_le; auto. Qed.
Lemma diff_self x : diff x x = None \/ diff x x = Some 0%R.
Proof. destruct x; cbn; auto. right. f_equal. ring. Qed.
Lemma factor_self k len x : k <> Linear -> factor k len (diff x x) = 1%R.
Proof.
  intros K. destruct (diff_self x) as [-> | ->]; cbn; auto. destruct (Req_EM_T len 0); auto.
  unfold Rdiv. rewrite Rmult_0_l. apply shape_0; auto.
Qed.
Lemma factor_0 k len : k <> Linear -> factor k len (Some 0%R) = 1%R.
Proof. intros K. cbn. destruct (Req_EM_T len 0); auto. unfold Rdiv. rewrite Rmult_0_l. apply shape_0; auto. Qed.

Lemma c53_all : forall (G : geo) k h v w hmax, k = Barnes \/ k = Powerlaw ->
  (0 < h)%Qc -> (0 <= v)%Qc -> (0 <= w)%Qc -> cutoff_ok hmax ->
  exists S, mk_base k (Fin h) (Fin v) (Fin w) hmax = Ok S /\
  (forall p, has_place p -> corr G S p p = Ok (RF 1)) /\
  (forall p q d, apart p q d -> exists c, corr G S p q = Ok (RF c) /\ corr G S q p = Ok (RF c) /\ (0 <= c <= 1)%R) /\
  (forall p q p' q' d d' c c', apart p q d -> apart p' q' d' -> (d <= d')%R ->
     no_larger (diff (p_elev p) (p_elev q)) (diff (p_elev p') (p_elev q')) ->
     no_larger (diff (p_laf p) (p_laf q)) (diff (p_laf p') (p_laf q')) ->
     corr G S p q = Ok (RF c) -> corr G S p' q' = Ok (RF c') -> (c' <= c)%R) /\
  exists L, (0 <= L)%R /\ forall p q d, apart p q d ->
     corr G S p q = Ok (RF (if Rlt_dec L d then 0
                            else shape k (d / qr h) * factor k (qr v) (diff (p_elev p) (p_elev q))
                                                    * factor k (qr w) (diff (p_laf p) (p_laf q)))).
Proof.
  intros G k h v w hmax K H V W M. assert (NL := evenk_nl k K). pose proof (qr_pos h H) as H'.
  exists (base_of k h v w hmax). split; [apply mk_base_ok; auto; apply Qclt_le_weak; auto|].
  destruct (loc_even k (qr h) hmax K H' (cutoff_v2r _ M)) as (L & EL & PL & _).
  pose proof (fun d p1 p2 => corr_formula G k h v w hmax L d p1 p2 NL EL) as F.
  split; [|split; [|split]].
  - intros p (x & y & z & A). rewrite (F 0%R p p (apart_refl _ _ _ _ A)). destruct (Rlt_dec L 0) as [D|D]; [lra|].
    unfold corr3. rewrite factor_0, !factor_self by auto. do 2 f_equal. ring.
  - intros p q d A. eexists. split; [apply F; eauto|]. rewrite (F d q p (apart_sym _ _ _ A)). split.
    + destruct (Rlt_dec L d); auto. rewrite corr3_sym; auto.
    + destruct (Rlt_dec L d); [lra|]. pose proof (corr3_bounds k (qr h) (qr v) (qr w) d p q K). lra.
  - intros p q p' q' d d' c c' A A' D E1 E2. rewrite (F _ _ _ A), (F _ _ _ A'). intros [= <-] [= <-].
    destruct (straight_apart _ _ _ A) as (_ & D0).
    destruct (Rlt_dec L d) as [X|X]; destruct (Rlt_dec L d') as [Y|Y]; try lra.
    + pose proof (corr3_bounds k (qr h) (qr v) (qr w) d p q K). lra.
    + apply corr3_mono; auto.
  - exists L. split; auto. intros p q d A. rewrite (F _ _ _ A). destruct (Rlt_dec L d); auto.
    unfold corr3. cbn [factor]. destruct (Req_EM_T (qr h) 0); [lra|reflexivity].
Qed.

(** *** C55 *)
Lemma c55_all : forall (G : geo) k h v w, k = Barnes \/ k = Powerlaw -> (0 < h)%Qc -> (0 <= v)%Qc -> (0 <= w)%Qc ->
  (forall m, (0 <= m)%Qc -> exists S, mk_base k (Fin h) (Fin v) (Fin w) (Fin m) = Ok S /\
     (forall p, loc_dist G S p = Ok (RF (qr m))) /\
     (forall p q d, apart p q d -> (qr m < d)%R -> corr G S p q = Ok (RF 0)) /\
     (forall p q d, apart p q d -> (d <= qr m)%R -> exists c, corr G S p q = Ok (RF c) /\ (0 < c)%R)) /\
  (exists S L, mk_base k (Fin h) (Fin v) (Fin w) MV = Ok S /\ (0 < L)%R /\
     (forall p, loc_dist G S p = Ok (RF L)) /\
     (forall p q d, apart p q d -> (L < d)%R -> corr G S p q = Ok (RF 0) /\ (shape k (d / qr h) < 13 / 10000)%R) /\
     (forall p q d, apart p q d -> (d <= L)%R -> (13 / 10000 <= shape k (d / qr h))%R /\
        exists c, corr G S p q = Ok (RF c) /\ (0 < c)%R)).
Proof.
  intros G k h v w K H V W. assert (NL := evenk_nl k K). pose proof (qr_pos h H) as H'. assert (H0 := Qclt_le_weak _ _ H).
  split.
  - intros m M. exists (base_of k h v w (Fin m)). split; [apply mk_base_ok; auto; right; eauto|].
    destruct (loc_even k (qr h) (Fin m) K H') as (L & EL & PL & LM & _). { right. eexists. split; [reflexivity|]. apply qr_nonneg; auto. }
    specialize (LM _ eq_refl). subst L. split; [intros p; rewrite loc_formula, EL; auto|]. split; intros p q d A D; rewrite (corr_formula G k h v w _ _ d p q NL EL A).
    + destruct (Rlt_dec (qr m) d); [auto|lra].
    + destruct (Rlt_dec (qr m) d); [lra|]. eexists. split; [reflexivity|]. apply corr3_bounds; auto.
  - destruct (loc_even k (qr h) NaN K H') as (L & EL & PL & _ & LM); [left; auto|]. specialize (LM eq_refl). subst L.
    exists (base_of k h v w NaN), (cut k * qr h)%R. split; [apply mk_base_ok; auto; left; auto|].
    pose proof (cut_pos k) as CP. split; [nra|]. split; [intros p; rewrite loc_formula, EL; auto|].
    assert (CE : (cut k = cut k * qr h / qr h)%R) by (field; lra).
    assert (IV : (0 < / qr h)%R) by (apply Rinv_0_lt_compat; auto).
    split; intros p q d A D; destruct (straight_apart _ _ _ A) as (_ & D0); rewrite (corr_formula G k h v w _ _ d p q NL EL A).
    + destruct (Rlt_dec (cut k * qr h) d); [|lra]. split; auto. rewrite <- (cut_shape k K). apply shape_strict; auto. split; [lra|].
      rewrite CE. apply Rmult_lt_compat_r; auto.
    + destruct (Rlt_dec (cut k * qr h) d); [lra|]. split; [|eexists; split; [reflexivity|]; apply corr3_bounds; auto].
      rewrite <- (cut_shape k K). apply shape_mono; auto. rewrite !Rabs_right; [|lra|apply Rle_ge; apply Rmult_le_pos; lra].
      rewrite CE. apply Rmult_le_compat_r; lra.
Qed.

(** *** C54 *)
Lemma cressman_RF d len : len <> 0%R -> (0 < len)%R -> cressman_rho (RF d) (RF len) = RF (cress (d / len)).
Proof.
  intros N H. unfold cressman_rho. rewrite guarded_RF by auto. unfold cress.
  destruct (Rlt_dec (d / len) 1) as [D|D].
  - assert (d < len)%R. { apply (Rmult_lt_reg_r (/ len)); [apply Rinv_0_lt_compat; auto|]. rewrite Rinv_r by auto. exact D. }
    rewrite rleb_f by auto. unfold rsub. cbn [rmul rneg radd]. assert (0 < len * len + d * d)%R by nra.
    rewrite rdiv_RF by lra. f_equal. field. repeat split; nra.
  - assert (len <= d)%R. { apply (Rmult_le_reg_r (/ len)); [apply Rinv_0_lt_compat; auto|]. rewrite Rinv_r by auto. apply Rnot_lt_le in D. exact D. }
    rewrite rleb_t by auto. reflexivity.
Qed.
Lemma cressman_0 d : cressman_rho d (RF 0) = RF 1.
Proof. unfold cressman_rho. apply guarded_0. Qed.
Lemma times_cressman r x1 x2 len : (0 <= len)%R ->
  times_factor cressman_rho (RF r) x1 x2 (RF len) = RF (r * cfactor len (diff x1 x2)).
Proof.
  intros K. unfold times_factor. destruct (is_valid x1 && is_valid x2) eqn:V.
  - destruct (vsub_diff _ _ V) as (e & E1 & E2). rewrite E1, E2. cbn [cfactor]. destruct (Req_EM_T len 0) as [->|N].
    + rewrite cressman_0. reflexivity.
    + rewrite cressman_RF by lra. reflexivity.
  - rewrite (diff_none _ _ V). cbn. f_equal. ring.
Qed.
Lemma product_cressman h v w d p1 p2 : (0 <= h)%R -> (0 <= v)%R -> (0 <= w)%R ->
  product cressman_rho (RF d) p1 p2 (RF h) (RF v) (RF w) =
  RF (cfactor h (Some d) * cfactor v (diff (p_elev p1) (p_elev p2)) * cfactor w (diff (p_laf p1) (p_laf p2))).
Proof.
  intros H V W. unfold product. cbn [cfactor]. destruct (Req_EM_T h 0) as [->|N].
  - rewrite cressman_0. rewrite !times_cressman by auto. reflexivity.
  - rewrite cressman_RF by lra. rewrite !times_cressman by auto. reflexivity.
Qed.
Lemma mk_cressman_ok h v w : (0 <= h)%Qc -> (0 <= v)%Qc -> (0 <= w)%Qc ->
  mk_cressman (Fin h) (Fin v) (Fin w) = Ok (SCressman (Fin h) (Fin v) (Fin w)).
Proof. intros. unfold mk_cressman. rewrite !bad_ok by auto. reflexivity. Qed.

(** a point at the origin with a given elevation *)
Definition origin (e : val) : point :=
  {| p_lat := fz 0; p_lon := fz 0; p_elev := e; p_laf := MV; p_type := Cartesian; p_x := fz 0; p_y := fz 0; p_z := fz 0 |}.
Lemma origin_apart a b : apart (origin a) (origin b) 0.
Proof.
  exists (qz 0), (qz 0), (qz 0), (qz 0), (qz 0), (qz 0). split; [repeat split|]. split; [repeat split|].
  rewrite qr_z. replace ((0 - 0) ^ 2 + (0 - 0) ^ 2 + (0 - 0) ^ 2)%R with 0%R by ring. symmetry; apply sqrt_0.
Qed.
Lemma qz_nonneg n : 0 <= n -> (0 <= qz n)%Qc. Proof. intros. change 0%Qc with (qz 0). apply qz_le; auto. Qed.
Lemma soar_toar_corr G k h v w hmax d p1 p2 : k <> Linear -> apart p1 p2 d ->
  exists b : bool, corr G (base_of k h v w hmax) p1 p2 = Ok (RF (if b then 0 else corr3 k (qr h) (qr v) (qr w) d p1 p2)) /\
                   corr G (base_of k h v w hmax) p2 p1 = Ok (RF (if b then 0 else corr3 k (qr h) (qr v) (qr w) d p2 p1)).
Proof.
  intros K A. destruct (straight_apart _ _ _ A) as (S & _). destruct (straight_apart _ _ _ (apart_sym _ _ _ A)) as (S' & _).
  cbn [corr base_of]. unfold corr_base, loc_base. cbn [b_spatial b_h b_v b_w b_kind b_min].
  change (get2 [[Fin h]] 0 0) with (Ok (Fin h)). change (get2 [[Fin v]] 0 0) with (Ok (Fin v)). change (get2 [[Fin w]] 0 0) with (Ok (Fin w)).
  cbn [bind v2r]. rewrite S, S'. exists (rltb (loc_h k (min_rho_of k (RF (qr h)) (v2r hmax)) (RF (qr h))) (RF d)).
  rewrite !product_RF by auto.
  destruct (rltb _ _); auto.
Qed.

(** default cut-off of Soar and Toar *)
Definition ell : R := (- ln (13 / 10000))%R.
Lemma ell_gt1 : (1 < ell)%R.
Proof.
  unfold ell. assert (ln (13 / 10000) < -1)%R; [|lra]. rewrite <- (ln_exp (-1)). apply ln_increasing; [lra|].
  pose proof exp_le_3. pose proof (exp_pos 1). replace (exp (-1)) with (/ exp 1)%R.
  2:{ symmetry. change (-1)%R with (IZR (-1)). replace (IZR (-1)) with (- (1))%R by lra. apply exp_Ropp. }
  apply Rlt_le_trans with (/ 3)%R; [lra|]. apply Rinv_le_contravar; lra.
Qed.
Lemma ln_ell : (0 < ln ell)%R. Proof. rewrite <- ln_1. apply ln_increasing; [lra|apply ell_gt1]. Qed.
Definition Ls (k : kind) : R := match k with Soar => (ell + ln ell)%R | _ => (ell + ln ell + 1 / 2 * ln ell)%R end.
Lemma loc_default_st k h m : k = Soar \/ k = Toar -> r_valid m = false -> loc_h k (min_rho_of k (RF h) m) (RF h) = RF (Ls k * h).
Proof.
  intros K M. pose proof ell_gt1 as E1. unfold ell in E1. destruct K as [-> | ->]; unfold min_rho_of; rewrite M; unfold loc_h, default_min_rho, half_r;
  rewrite rlog_RF by lra; cbn [rneg]; rewrite rlog_RF by lra; reflexivity.
Qed.
Lemma Ls_pos k : (0 < Ls k)%R. Proof. pose proof ell_gt1. pose proof ln_ell. destruct k; cbn; lra. Qed.
Lemma c54_refuted :
  (exists S p q, mk_cressman (fz 1000) (fz 100) (fz 0) = Ok S /\ apart p q 0 /\
     forall G, corr G S p q = Ok (RF 0) /\ corr G S q p = Ok (RF (- 3 / 5))) /\
  (exists S p q c c', mk_base Soar (fz 1000) (fz 100) (fz 0) MV = Ok S /\ apart p q 0 /\
     (forall G, corr G S p q = Ok (RF c) /\ corr G S q p = Ok (RF c')) /\ (c' < 0 < c)%R) /\
  (exists S p q c c', mk_base Toar (fz 1000) (fz 100) (fz 0) MV = Ok S /\ apart p q 0 /\
     (forall G, corr G S p q = Ok (RF c) /\ corr G S q p = Ok (RF c')) /\ (c < 1 < c')%R).
Proof.
  assert (N0 : IZR 100 <> 0%R) by lra. assert (N1 : IZR 1000 <> 0%R) by lra.
  assert (F : forall k a b, k <> Linear -> corr3 k (qr (qz 1000)) (qr (qz 100)) (qr (qz 0)) 0 (origin (fz a)) (origin (fz b)) = shape k ((IZR a - IZR b) / 100)).
  { intros k a b K. unfold corr3. rewrite factor_0 by auto. cbn [origin p_elev p_laf MV diff factor]. rewrite !qr_z. cbn [diff fz]. rewrite !qr_z.
    cbn [factor]. destruct (Req_EM_T 100 0); [lra|]. ring. }
  split; [|split].
  - exists (SCressman (fz 1000) (fz 100) (fz 0)), (origin (fz 200)), (origin (fz 0)).
    split; [apply mk_cressman_ok; apply qz_nonneg; lia|]. split; [apply origin_apart|].
    intros G. pose proof (origin_apart (fz 200) (fz 0)) as A.
    destruct (straight_apart _ _ _ A) as (E1 & _). destruct (straight_apart _ _ _ (apart_sym _ _ _ A)) as (E2 & _).
    cbn [corr]. rewrite E1, E2. unfold fz. cbn [v2r]. rewrite !qr_z. rewrite !product_cressman by lra.
    assert (C0 : cfactor 1000 (Some 0%R) = 1%R). { cbn. destruct (Req_EM_T 1000 0); [lra|]. unfold cress. replace (0 / 1000)%R with 0%R by field. destruct (Rlt_dec 0 1); [field|lra]. }
    rewrite C0. cbn [origin p_elev p_laf diff MV fz]. cbn [diff]. rewrite !qr_z. cbn [cfactor]. destruct (Req_EM_T 100 0); [lra|]. unfold cress.
    destruct (Rlt_dec ((200 - 0) / 100) 1) as [D|D]; [lra|]. destruct (Rlt_dec ((0 - 200) / 100) 1) as [D'|D']; [|lra].
    split; do 2 f_equal; [ring|field].
  - pose proof (Ls_pos Soar) as LP. eexists (base_of Soar (qz 1000) (qz 100) (qz 0) MV), (origin (fz 200)), (origin (fz 0)), _, _.
    split; [apply mk_base_ok; try (apply qz_nonneg; lia); left; auto|]. split; [apply origin_apart|].
    assert (EL : loc_h Soar (min_rho_of Soar (RF (qr (qz 1000))) (v2r MV)) (RF (qr (qz 1000))) = RF (Ls Soar * qr (qz 1000))) by (apply loc_default_st; auto).
    split. { intros G. split; (eapply corr_formula; [discriminate|exact EL|apply origin_apart]). }
    rewrite !F by discriminate. rewrite qr_z. destruct (Rlt_dec (Ls Soar * 1000) 0); [lra|]. cbn [shape].
    pose proof (exp_pos (- ((0 - 200) / 100))). pose proof (exp_pos (- ((200 - 0) / 100))). nra.
  - pose proof (Ls_pos Toar) as LP. eexists (base_of Toar (qz 1000) (qz 100) (qz 0) MV), (origin (fz 300)), (origin (fz 0)), _, _.
    split; [apply mk_base_ok; try (apply qz_nonneg; lia); left; auto|]. split; [apply origin_apart|].
    assert (EL : loc_h Toar (min_rho_of Toar (RF (qr (qz 1000))) (v2r MV)) (RF (qr (qz 1000))) = RF (Ls Toar * qr (qz 1000))) by (apply loc_default_st; auto).
    split. { intros G. split; (eapply corr_formula; [discriminate|exact EL|apply origin_apart]). }
    rewrite !F by discriminate. rewrite qr_z. destruct (Rlt_dec (Ls Toar * 1000) 0); [lra|]. cbn [shape].
    replace ((300 - 0) / 100)%R with 3%R by field. replace ((0 - 300) / 100)%R with (-(3))%R by field.
    rewrite Ropp_involutive. pose proof (exp_ineq1 3 ltac:(lra)). rewrite exp_Ropp.
    split; [|lra]. replace (1 + 3 + 3 * 3 / 3)%R with 7%R by field. assert (7 < exp 3)%R.
    { replace 3%R with (1 + 1 + 1)%R by ring. rewrite !exp_plus. pose proof (exp_ineq1 1 ltac:(lra)). set (e := exp 1) in *. clearbody e.
      assert (4 < e * e)%R by nra. nra. }
    apply (Rmult_lt_reg_r (exp 3)); [lra|]. rewrite Rmult_assoc, Rinv_l by lra. lra.
Qed.

(** points on a line, for the examples *)
Definition pt (x e f : val) : point :=
  {| p_lat := fz 0; p_lon := x; p_elev := e; p_laf := f; p_type := Cartesian; p_x := x; p_y := fz 0; p_z := fz 0 |}.
Lemma pt_apart x y a b e f : 0 <= y - x -> apart (pt (fz x) a b) (pt (fz y) e f) (IZR (y - x)).
Proof.
  intros H. exists (qz x), (qz 0), (qz 0), (qz y), (qz 0), (qz 0). split; [repeat split|]. split; [repeat split|]. rewrite !qr_z.
  replace ((IZR x - IZR y) ^ 2 + (0 - 0) ^ 2 + (0 - 0) ^ 2)%R with (IZR (y - x) * IZR (y - x))%R by (rewrite minus_IZR; ring).
  symmetry. apply sqrt_square. apply (IZR_le 0). exact H.
Qed.

