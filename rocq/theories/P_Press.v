(** Pressure, QNH and sea-level pressure. *)
From Coq Require Import Reals Lra Lia.
From Verif Require Import RBase RPow P_RBase ListLib M_Diag S_Diag P_Trans.
Local Open Scope R_scope.

Lemma dec_RF n d : dec n d = RF (IZR n / IZR (Zpos d)). Proof. reflexivity. Qed.
Lemma rmul_RF x y : rmul (RF x) (RF y) = RF (x * y). Proof. reflexivity. Qed.
Lemma radd_RF x y : radd (RF x) (RF y) = RF (x + y). Proof. reflexivity. Qed.
Lemma rneg_RF x : rneg (RF x) = RF (- x). Proof. reflexivity. Qed.
Definition kp : R := 980665 / 100000 * (289644 / 10000000) / (83144598 / 10000000).
Lemma kp_pos : 0 < kp. Proof. unfold kp. lra. Qed.
Lemma pressure_RF a b p T : T <> 0 -> pressure (RF a) (RF b) (RF p) (RF T) = RF (p * exp (- kp * (b - a) / T)).
Proof.
  intros HT. unfold pressure. cbn [r_valid andb]. rewrite !dec_RF. unfold rsub. cbn [rneg rmul radd]. rewrite rdiv_RF by (apply Rmult_integral_contrapositive; split; [lra|exact HT]).
  cbn [rexp rmul]. do 3 f_equal. unfold kp. field. exact HT.
Qed.
Lemma c66_pressure :
  (forall a b p T, 0 < T -> exists q, pressure (RF a) (RF b) (RF p) (RF T) = RF q /\ (a = b -> q = p) /\ (0 < p -> 0 < q) /\
     (forall b', 0 < p -> b < b' -> exists q', pressure (RF a) (RF b') (RF p) (RF T) = RF q' /\ q' < q) /\
     (forall c, pressure (RF b) (RF c) (RF q) (RF T) = pressure (RF a) (RF c) (RF p) (RF T))) /\
  (forall a b p T, r_valid a = false \/ r_valid b = false \/ r_valid p = false \/ r_valid T = false -> pressure a b p T = RMV).
Proof.
  split.
  - intros a b p T HT. rewrite pressure_RF by lra. eexists. split; [reflexivity|]. pose proof kp_pos as K. assert (I : 0 < / T) by (apply Rinv_0_lt_compat; exact HT). split; [|split; [|split]].
    + intros ->. replace (- kp * (b - b) / T) with 0 by (field; lra). rewrite exp_0. ring.
    + intros Hp. apply Rmult_lt_0_compat; [exact Hp|apply exp_pos].
    + intros b' Hp Hb. rewrite pressure_RF by lra. eexists. split; [reflexivity|]. apply Rmult_lt_compat_l; [exact Hp|]. apply exp_increasing. unfold Rdiv. apply Rmult_lt_compat_r; [exact I|]. nra.
    + intros c. rewrite !pressure_RF by lra. f_equal. rewrite Rmult_assoc, <- exp_plus. do 2 f_equal. field. lra.
  - intros a b p T H. unfold pressure. destruct (r_valid a), (r_valid b), (r_valid p), (r_valid T); cbn [andb]; try reflexivity. intuition discriminate.
Qed.

(** ** QNH *)
Definition kq : R := 287053 / 1000 * (65 / 10000) / (980665 / 100000).
Lemma kq_pos : 1 / 6 < kq < 1 / 5. Proof. unfold kq. lra. Qed.
Lemma inv_kq : 980665 / 100000 / (287053 / 1000 * (65 / 10000)) = / kq. Proof. unfold kq. field. Qed.
Definition base (p a : R) : R := Rpower (p / 101325) kq + a * (65 / 10000) / (28815 / 100).
Lemma inv_kq_range : 5 < / kq < 6.
Proof. pose proof kq_pos. split; [rewrite <- (Rinv_inv 5)|rewrite <- (Rinv_inv 6)]; apply Rinv_lt_contravar; lra. Qed.
Lemma not_int y : 5 < y < 6 -> Ris_int y = false.
Proof.
  intros H. unfold Ris_int. apply Reqb_f. intros E. rewrite <- E in H. destruct H as [H1 H2]. apply lt_IZR in H1, H2. lia.
Qed.
Lemma qnh_RF p a : 0 < p -> qnh (RF p) (RF a) =
  if Rlt_dec 0 (base p a) then RF (101325 * Rpower (base p a) (/ kq)) else if Req_EM_T (base p a) 0 then RF 0 else RNaN.
Proof.
  intros Hp. pose proof inv_kq_range as I. unfold qnh, rz. cbn [reqb]. rewrite Reqb_f by lra. cbn [r_valid andb]. rewrite !dec_RF. cbn [rmul]. rewrite !rdiv_RF by lra. fold kq. rewrite inv_kq.
  rewrite rpow_pos by (apply Rdiv_lt_0_compat; lra). cbn [radd]. fold (base p a).
  destruct (Rlt_dec 0 (base p a)) as [B|B]; [rewrite rpow_pos by exact B; reflexivity|]. unfold rpow. rewrite Reqb_f by lra. rewrite Rltb_f by lra.
  destruct (Req_EM_T (base p a) 0) as [E|E].
  - rewrite Reqb_t by exact E. rewrite Rltb_f by lra. unfold rz. cbn [rmul]. f_equal. ring.
  - rewrite Reqb_f by exact E. rewrite not_int by exact I. reflexivity.
Qed.
Lemma base_mono p a b : a < b -> base p a < base p b.
Proof. intros H. unfold base. lra. Qed.
Lemma c66_qnh :
  (forall p, 0 < p -> qnh (RF p) (RF 0) = RF p) /\
  (forall p a, 0 < p -> 0 <= a -> exists x, qnh (RF p) (RF a) = RF x /\ p <= x) /\
  (forall p a b x, 0 < p -> a < b -> qnh (RF p) (RF a) = RF x -> exists y, qnh (RF p) (RF b) = RF y /\ x < y) /\
  (forall p p' a x, 0 < p -> p < p' -> qnh (RF p) (RF a) = RF x -> exists y, qnh (RF p') (RF a) = RF y /\ x < y) /\
  (forall p a, r_valid p = false \/ (r_valid a = false /\ p <> RF 0) -> qnh p a = RMV).
Proof.
  pose proof kq_pos as K. pose proof inv_kq_range as IK.
  assert (Z0 : forall p, 0 < p -> qnh (RF p) (RF 0) = RF p).
  { intros p Hp. rewrite qnh_RF by exact Hp. assert (E : base p 0 = Rpower (p / 101325) kq) by (unfold base; lra). rewrite E. pose proof (Rpower_pos (p / 101325) kq).
    destruct (Rlt_dec 0 (Rpower (p / 101325) kq)); [|lra]. f_equal. rewrite Rpower_mult. rewrite Rinv_r by lra. rewrite Rpower_1 by (apply Rdiv_lt_0_compat; lra). field. }
  assert (UP : forall p p' a b x, 0 < p -> 0 < p' -> base p a < base p' b -> qnh (RF p) (RF a) = RF x -> exists y, qnh (RF p') (RF b) = RF y /\ x < y).
  { intros p p' a b x Hp Hp' HB. rewrite !qnh_RF by auto. destruct (Rlt_dec 0 (base p a)) as [B|B].
    - intros H. injection H as <-. destruct (Rlt_dec 0 (base p' b)); [|lra]. eexists. split; [reflexivity|]. assert (Rpower (base p a) (/ kq) < Rpower (base p' b) (/ kq)) by (apply Rpower_incr; lra). lra.
    - destruct (Req_EM_T (base p a) 0) as [E|E]; [|discriminate]. intros H. injection H as <-. destruct (Rlt_dec 0 (base p' b)); [|lra]. eexists. split; [reflexivity|].
      pose proof (Rpower_pos (base p' b) (/ kq)). lra. }
  split; [exact Z0|]. split; [|split; [|split]].
  - intros p a Hp Ha. destruct (Rle_lt_or_eq_dec _ _ Ha) as [A|A].
    + destruct (UP p p 0 a p Hp Hp (base_mono _ _ _ A) (Z0 p Hp)) as (y & E & L). exists y. split; [exact E|lra].
    + subst a. exists p. split; [apply Z0; exact Hp|lra].
  - intros p a b x Hp H. apply UP; auto. apply base_mono. exact H.
  - intros p p' a x Hp H. apply UP; auto; [lra|]. unfold base. assert (Rpower (p / 101325) kq < Rpower (p' / 101325) kq) by (apply Rpower_incr; lra). lra.
  - intros p a H. unfold qnh. destruct p as [| | |p]; cbn [reqb r_valid]; rewrite ?andb_false_r; try reflexivity. destruct H as [H|[H N]]; [discriminate|].
    destruct (Reqb p 0) eqn:E; [apply Reqb_spec in E; subst; exfalso; apply N; reflexivity|]. unfold rz. cbn [reqb]. rewrite E. rewrite H. reflexivity.
Qed.

(** ** Sea-level pressure *)
Lemma tens_RF b t : 0 < b -> exists z, tens (RF b) (RF t) = RF z /\ 0 <= z /\ (b + t <> 0 -> z = 611 / 100 * Rpower 10 (75 / 10 * t / (b + t))).
Proof.
  intros Hb. unfold tens, rz. rewrite !dec_RF. cbn [rmul radd]. destruct (Req_dec (b + t) 0) as [E|E].
  - assert (N : rdiv (RF (75 / 10 * t)) (RF (b + t)) = RNInf).
    { unfold rdiv. rewrite Reqb_t by exact E. rewrite Reqb_f by lra. rewrite Rltb_t by lra. reflexivity. }
    rewrite N. unfold rpow. rewrite (Rabs_right 10) by lra. rewrite Reqb_f by lra. rewrite Rltb_f by lra. unfold rz. cbn [rmul]. eexists. split; [reflexivity|]. split; [lra|tauto].
  - rewrite rdiv_RF by exact E. rewrite rpow_pos by lra. cbn [rmul]. eexists. split; [reflexivity|]. split; [|reflexivity].
    pose proof (Rpower_pos 10 (75 / 10 * t / (b + t))). lra.
Qed.
Lemma slp_guard ps t rh dew : slp_accepts ps t rh dew ->
  rltb (RF ps) (rz 0) || rltb (RF t) (rz 0) || rltb rh (rz 0) || rltb (rz 1) rh || rltb dew (rz 0) = false.
Proof.
  intros (Hp & Ht & Hr & Hd & N1 & N2 & N3). unfold rz.
  assert (A : rltb (RF ps) (RF 0) = false) by (apply Rltb_f; lra).
  assert (B : rltb (RF t) (RF 0) = false) by (apply Rltb_f; lra).
  assert (C : rltb rh (RF 0) = false). { destruct rh; try reflexivity; try congruence. destruct (Hr eq_refl) as (x0 & E & H). injection E as ->. apply Rltb_f; lra. }
  assert (D : rltb (RF 1) rh = false). { destruct rh; try reflexivity; try congruence. destruct (Hr eq_refl) as (x0 & E & H). injection E as ->. apply Rltb_f; lra. }
  assert (F : rltb dew (RF 0) = false). { destruct dew; try reflexivity; try congruence. destruct (Hd eq_refl) as (x0 & E & H). injection E as ->. apply Rltb_f; lra. }
  rewrite A, B, C, D, F. reflexivity.
Qed.

Lemma slp_high ps alt t rh dew : slp_accepts ps t rh dew -> 50 <= alt -> exists x, sea_level_pressure (RF ps) (RF alt) (RF t) rh dew = Ok (RF x) /\ ps <= x.
Proof.
  intros H Ha. pose proof (slp_guard _ _ _ _ H) as G. destruct H as (Hp & Ht & Hr & Hd & _). unfold sea_level_pressure. rewrite G. cbn [r_valid negb]. rewrite !dec_RF. unfold rz, rsub. cbn [rneg rmul radd].
  rewrite rleb_t by exact Ha. cbn [rmul].
  assert (FIN : forall e, 0 <= e -> exists x,
    Ok (rmul (rmul (RF (ps * (1 / 100))) (rexp (rdiv (rdiv (RF (980665 / 100000 * alt)) (RF (28705 / 100)))
       (radd (radd (RF (27315 / 100 + (t + - (27315 / 100)))) (RF (5 / 10 * (65 / 10000) * alt))) (rmul (RF e) (RF (12 / 100))))))) (RF 100)) = Ok (RF x) /\ ps <= x).
  { intros e He. cbn [rmul radd]. set (den := 27315 / 100 + (t + - (27315 / 100)) + 5 / 10 * (65 / 10000) * alt + e * (12 / 100)). assert (D : 0 < den) by (unfold den; lra).
    rewrite (rdiv_RF _ (28705 / 100)) by lra. rewrite rdiv_RF by lra. cbn [rexp rmul]. eexists. split; [reflexivity|].
    assert (0 <= 980665 / 100000 * alt / (28705 / 100) / den). { apply Rmult_le_pos; [lra|]. left. apply Rinv_0_lt_compat. exact D. }
    assert (1 <= exp (980665 / 100000 * alt / (28705 / 100) / den)). { rewrite <- exp_0. destruct (Rle_lt_or_eq_dec _ _ H) as [L|L]; [left; apply exp_increasing; exact L|right; f_equal; exact L]. }
    nra. }
  destruct (r_valid rh) eqn:V.
  - destruct (Hr eq_refl) as (x & -> & Hx). destruct (tens_RF (2373 / 10) (t + - (27315 / 100)) ltac:(lra)) as (z & -> & Hz & _). apply FIN. apply Rmult_le_pos; lra.
  - destruct (r_valid dew) eqn:W; [|apply FIN; lra]. destruct (Hd eq_refl) as (x & -> & Hx). cbn [radd]. destruct (tens_RF (2373 / 10) (x + - (27315 / 100)) ltac:(lra)) as (z & -> & Hz & _). apply FIN. exact Hz.
Qed.

(** below 50 m, with a dew point that is a number *)
Lemma low_formula ps alt t d : 0 < ps -> 0 < t -> alt = 0 ->
  rmul (radd (RF ps) (rdiv (rmul (RF ps) (RF alt)) (rmul (dec 2927 100) (rdiv (RF t) (rsub (rz 1) (rmul (dec 379 1000) (rdiv (tens (dec 2377 10) (RF d)) (RF ps)))))))) (rz 100) = RF (ps * 100).
Proof.
  intros Hp Ht ->. destruct (tens_RF (2377 / 10) d ltac:(lra)) as (z & E & Hz & _). rewrite !dec_RF. rewrite E. rewrite (rdiv_RF z) by lra. unfold rz, rsub. rewrite !rmul_RF, rneg_RF, radd_RF.
  set (q := 1 + - (379 / 1000 * (z / ps))). replace (ps * 0) with 0 by ring.
  assert (K : rdiv (RF 0) (rmul (RF (2927 / 100)) (rdiv (RF t) (RF q))) = RF 0).
  { destruct (Req_dec q 0) as [Q|Q].
    - unfold rdiv at 2. rewrite Reqb_t by exact Q. rewrite Reqb_f by lra. rewrite Rltb_f by lra. unfold rinf. unfold rmul. rewrite Reqb_f by lra. rewrite Rltb_f by lra. reflexivity.
    - rewrite rdiv_RF by exact Q. cbn [rmul]. rewrite rdiv_RF; [f_equal; unfold Rdiv; ring|]. apply Rmult_integral_contrapositive. split; [lra|]. unfold Rdiv. apply Rmult_integral_contrapositive. split; [lra|apply Rinv_neq_0_compat; exact Q]. }
  rewrite K. cbn [radd rmul]. f_equal. ring.
Qed.
Lemma ln10 : ln 10 < 3.
Proof.
  rewrite <- (ln_exp 3). apply ln_increasing; [lra|]. pose proof (exp_ineq1 1 ltac:(lra)) as H. assert (1 + 1 < exp 1) by lra.
  assert (E : exp 3 = exp 1 * exp 1 * exp 1) by (rewrite <- !exp_plus; f_equal; lra).
  assert (B : 5 / 2 < exp 1). { assert (exp 1 = exp (1/2) * exp (1/2)) by (rewrite <- exp_plus; f_equal; lra). assert (exp (1/2) = exp (1/4) * exp (1/4)) by (rewrite <- exp_plus; f_equal; lra).
    assert (exp (1/4) = exp (1/8) * exp (1/8)) by (rewrite <- exp_plus; f_equal; lra). pose proof (exp_ineq1 (1/8) ltac:(lra)). pose proof (exp_pos (1/8)).
    assert (81/64 < exp (1/4)) by nra. assert (1.6 < exp (1/2)) by nra. nra. }
  rewrite E. nra.
Qed.
Lemma slp_sea ps t rh dew : slp_accepts ps t rh dew -> 0 < ps -> 0 < t ->
  (r_valid rh = false \/ (rh <> RF 0 /\ 3585 / 100 < t <= 37315 / 100)) ->
  sea_level_pressure (RF ps) (RF 0) (RF t) rh dew = Ok (RF ps).
Proof.
  intros H Hp Ht HR. pose proof (slp_guard _ _ _ _ H) as G. destruct H as (_ & _ & Hr & Hd & _). unfold sea_level_pressure. rewrite G. cbn [r_valid negb].
  assert (NB : rleb (rz 50) (RF 0) = false) by (apply rleb_f; lra). rewrite NB.
  assert (FIN : forall x, x = RF (t + - (27315 / 100)) -> forall d, Ok (rmul (radd (rmul (RF ps) (dec 1 100)) (rdiv (rmul (rmul (RF ps) (dec 1 100)) (RF 0)) (rmul (dec 2927 100) (rdiv (radd (dec 27315 100) x)
     (rsub (rz 1) (rmul (dec 379 1000) (rdiv (tens (dec 2377 10) (RF d)) (rmul (RF ps) (dec 1 100))))))))) (rz 100)) = Ok (RF ps)).
  { intros x -> d. f_equal. rewrite (dec_RF 1 100), (dec_RF 27315 100). rewrite (rmul_RF ps), (radd_RF (27315 / 100)). rewrite low_formula; [f_equal; field|lra|lra|reflexivity]. }
  assert (TC : rsub (RF t) (dec 27315 100) = RF (t + - (27315 / 100))) by reflexivity.
  destruct (r_valid rh) eqn:V.
  - destruct HR as [HR|[Hn HT]]; [discriminate|]. destruct (Hr eq_refl) as (x & -> & Hx). assert (X : 0 < x) by (destruct (Req_dec x 0); [subst; congruence|lra]).
    rewrite TC. rewrite (dec_RF 2373 10). destruct (tens_RF (2373 / 10) (t + - (27315 / 100)) ltac:(lra)) as (z & E & Hz & Fz). rewrite E. rewrite rmul_RF.
    assert (D0 : 2373 / 10 + (t + - (27315 / 100)) <> 0) by lra. specialize (Fz D0). set (y := 75 / 10 * (t + - (27315 / 100)) / (2373 / 10 + (t + - (27315 / 100)))) in Fz.
    assert (Y : y <= 3). { unfold y. apply Rmult_le_reg_r with (2373 / 10 + (t + - (27315 / 100))); [lra|]. unfold Rdiv at 1. rewrite Rmult_assoc, Rinv_l, Rmult_1_r by exact D0. lra. }
    pose proof (Rpower_pos 10 y) as PY. assert (PZ : 0 < z) by (rewrite Fz; lra).
    rewrite (dec_RF 61094 10000), (rdiv_RF (x * z)) by lra. rewrite rlog_RF by (apply Rdiv_lt_0_compat; [apply Rmult_lt_0_compat; lra|lra]).
    set (L := ln (x * z / (61094 / 10000))).
    assert (HL : L < 12). { unfold L. rewrite <- (ln_exp 12). apply ln_increasing; [apply Rdiv_lt_0_compat; [apply Rmult_lt_0_compat; lra|lra]|].
      assert (B1 : Rpower 10 y <= exp 9). { unfold Rpower. assert (0 < ln 10) by (rewrite <- ln_1; apply ln_increasing; lra). pose proof ln10. destruct (Req_dec (y * ln 10) 9) as [->|N]; [lra|]. left. apply exp_increasing. nra. }
      assert (E12 : exp 12 = exp 9 * (exp 1 * exp 1 * exp 1)) by (rewrite <- !exp_plus; f_equal; lra). pose proof (exp_ineq1 1 ltac:(lra)). pose proof (exp_pos 9).
      assert (x * z <= 611 / 100 * exp 9) by (rewrite Fz; nra). assert (2 * 2 * 2 <= exp 1 * exp 1 * exp 1) by nra. rewrite E12. nra. }
    rewrite (dec_RF 24304 100), (dec_RF 17625 1000). assert (DD : rdiv (rmul (RF (24304 / 100)) (RF L)) (rsub (RF (17625 / 1000)) (RF L)) = RF (24304 / 100 * L / (17625 / 1000 + - L))) by (apply rdiv_RF; lra). rewrite DD. apply FIN. reflexivity.
  - destruct (r_valid dew) eqn:W.
    + destruct (Hd eq_refl) as (x & -> & Hx). rewrite TC. apply FIN. reflexivity.
    + rewrite TC. apply FIN. reflexivity.
Qed.
Lemma slp_rejects ps alt t rh dew :
  r_valid alt = false \/ r_valid t = false \/ rltb ps (RF 0) = true \/ rltb t (RF 0) = true \/ rltb rh (RF 0) = true \/ rltb (RF 1) rh = true \/ rltb dew (RF 0) = true ->
  sea_level_pressure ps alt t rh dew = Throw RuntimeError.
Proof.
  intros H. unfold sea_level_pressure, rz. destruct (r_valid alt), (r_valid t); cbn [negb]; try reflexivity.
  destruct (rltb ps (RF 0)), (rltb t (RF 0)), (rltb rh (RF 0)), (rltb (RF 1) rh), (rltb dew (RF 0)); cbn [orb]; try reflexivity. intuition discriminate.
Qed.
(** dry air below 50 m *)
Lemma slp_dry ps alt t dew : slp_accepts ps t (RF 0) dew -> alt < 50 -> sea_level_pressure (RF ps) (RF alt) (RF t) (RF 0) dew = Ok RNaN.
Proof.
  intros H Ha. pose proof (slp_guard _ _ _ _ H) as G. unfold sea_level_pressure. rewrite G. cbn [r_valid negb].
  assert (NB : rleb (rz 50) (RF alt) = false) by (apply rleb_f; lra). rewrite NB. assert (TC : rsub (RF t) (dec 27315 100) = RF (t + - (27315 / 100))) by reflexivity. rewrite TC. rewrite (dec_RF 2373 10). destruct (tens_RF (2373 / 10) (t + - (27315 / 100)) ltac:(lra)) as (z & E & Hz & _). rewrite E. rewrite rmul_RF.
  rewrite (dec_RF 61094 10000), rdiv_RF by lra. assert (Z : rlog (RF (0 * z / (61094 / 10000))) = RNInf).
  { replace (0 * z / (61094 / 10000)) with 0 by (unfold Rdiv; ring). unfold rlog. rewrite Rltb_f by lra. rewrite Reqb_t by lra. reflexivity. }
  rewrite Z. assert (D : rdiv (rmul (dec 24304 100) RNInf) (rsub (dec 17625 1000) RNInf) = RNaN).
  { rewrite !dec_RF. unfold rsub. cbn [rneg radd]. unfold rmul. rewrite Reqb_f by lra. destruct (Rltb _ _); reflexivity. }
  rewrite D. assert (Tn : tens (dec 2377 10) RNaN = RNaN).
  { unfold tens. rewrite !dec_RF. cbn [rmul radd rdiv]. unfold rpow, rz. rewrite Reqb_f by lra. reflexivity. }
  rewrite Tn. rewrite !dec_RF. reflexivity.
Qed.
Lemma c90_all :
  (forall ps alt t rh dew, slp_accepts ps t rh dew -> 50 <= alt -> exists x, sea_level_pressure (RF ps) (RF alt) (RF t) rh dew = Ok (RF x) /\ ps <= x) /\
  (forall ps t rh dew, slp_accepts ps t rh dew -> 0 < ps -> 0 < t -> (r_valid rh = false \/ (rh <> RF 0 /\ 3585 / 100 < t <= 37315 / 100)) ->
     sea_level_pressure (RF ps) (RF 0) (RF t) rh dew = Ok (RF ps)) /\
  (forall ps alt t rh dew, r_valid alt = false \/ r_valid t = false \/ (exists x, x < 0 /\ (ps = RF x \/ t = RF x \/ rh = RF x \/ dew = RF x)) \/ (exists x, 1 < x /\ rh = RF x) ->
     sea_level_pressure ps alt t rh dew = Throw RuntimeError).
Proof.
  split; [exact slp_high|]. split; [exact slp_sea|]. intros ps alt t rh dew H. apply slp_rejects. destruct H as [H|[H|[(x & Hx & H)|(x & Hx & H)]]]; auto.
  - assert (L : rltb (RF x) (RF 0) = true) by (apply Rltb_t; exact Hx). destruct H as [-> | [-> | [-> | ->]]]; rewrite L; tauto.
  - assert (L : rltb (RF 1) (RF x) = true) by (apply Rltb_t; exact Hx). subst. rewrite L. tauto.
Qed.
Lemma c90_refuted : exists ps alt t rh, slp_accepts ps t rh RNaN /\ 0 < ps /\ 0 < alt /\ 250 < t < 310 /\ sea_level_pressure (RF ps) (RF alt) (RF t) rh RNaN = Ok RNaN.
Proof.
  exists 100000, 20, 280, (RF 0). assert (A : slp_accepts 100000 280 (RF 0) RNaN).
  { unfold slp_accepts. repeat split; try lra; try discriminate. intros _. exists 0. split; [reflexivity|lra]. }
  split; [exact A|]. split; [lra|]. split; [lra|]. split; [lra|]. apply slp_dry; [exact A|lra].
Qed.
