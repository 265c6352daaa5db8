(** wind_direction in binary32 *)
From Coq Require Import Reals Lra Lia.
From Flocq Require Import Core.
From Verif Require Import RBase RPow P_RBase M_Diag M_Wind32 P_Wind.
Local Open Scope R_scope.

Lemma fexp_valid : Valid_exp (FLT_exp (-149) 24). Proof. apply FLT_exp_valid. reflexivity. Qed.
#[local] Existing Instance fexp_valid.
Lemma rnd32_mono x y : x <= y -> rnd32 x <= rnd32 y.
Proof. intros H. apply round_le; [exact fexp_valid|apply valid_rnd_N|exact H]. Qed.
Lemma is32_scaled (m e : Z) : (Z.abs m < 2 ^ 24)%Z -> (-149 <= e)%Z -> is32 (IZR m * bpow radix2 e).
Proof.
  intros Hm He. unfold is32. apply generic_format_FLT. exists (Float radix2 m e); [reflexivity|exact Hm|exact He].
Qed.
Lemma rnd32_id x : is32 x -> rnd32 x = x.
Proof. intros H. apply round_generic; [apply valid_rnd_N|exact H]. Qed.
Lemma rnd32_int (n : Z) : (Z.abs n < 2 ^ 24)%Z -> rnd32 (IZR n) = IZR n.
Proof. intros H. rewrite <- (Rmult_1_r (IZR n)). change 1 with (bpow radix2 0). apply rnd32_id, is32_scaled; [exact H|lia]. Qed.
(** numbers just below 360 become 360 *)
Lemma rnd32_360 x : 360 - / 131072 < x <= 360 -> rnd32 x = 360.
Proof.
  intros [H1 H2]. unfold rnd32, round, scaled_mantissa, F2R. cbn [Fnum Fexp].
  assert (M : mag radix2 x = 9%Z :> Z). { apply mag_unique_pos. replace (bpow radix2 (9 - 1)) with 256 by reflexivity. replace (bpow radix2 9) with 512 by reflexivity. lra. }
  assert (E : cexp radix2 (FLT_exp (-149) 24) x = (-15)%Z). { unfold cexp. rewrite M. reflexivity. }
  rewrite E. change (bpow radix2 (- -15)) with 32768. change (bpow radix2 (-15)) with (/ 32768).
  rewrite (Znearest_imp (fun t => negb (Z.even t)) (x * 32768) 11796480).
  - lra.
  - rewrite Rabs_left1; lra.
Qed.
Lemma atan_small t : 0 < t < 1 -> t / 2 <= atan t <= t.
Proof.
  intros [H1 H2]. destruct (MVT_cor2 atan (fun x => / (1 + x ^ 2)) 0 t H1) as (c & E & C1 & C2).
  { intros c _. apply derivable_pt_lim_atan. }
  rewrite atan_0, !Rminus_0_r in E. assert (Q : 0 <= c ^ 2 < 1) by (split; nra). rewrite E.
  assert (I : / 2 <= / (1 + c ^ 2) <= 1). { split; [apply Rinv_le_contravar; lra|]. rewrite <- Rinv_1. apply Rinv_le_contravar; lra. }
  split; nra.
Qed.
Lemma rnd32_between (lo hi e : Z) x : (Z.abs lo < 2 ^ 24)%Z -> (Z.abs hi < 2 ^ 24)%Z -> (-149 <= e)%Z ->
  IZR lo * bpow radix2 e <= x <= IZR hi * bpow radix2 e -> IZR lo * bpow radix2 e <= rnd32 x <= IZR hi * bpow radix2 e.
Proof.
  intros H1 H2 H3 [L U]. split.
  - rewrite <- (rnd32_id (IZR lo * bpow radix2 e)) by (apply is32_scaled; auto). apply rnd32_mono. exact L.
  - rewrite <- (rnd32_id (IZR hi * bpow radix2 e)) by (apply is32_scaled; auto). apply rnd32_mono. exact U.
Qed.
(** a tiny positive xwind with a negative ywind: whatever close value atan2 returns, the result is 360 *)
Lemma c87_refuted : exists xwind ywind : R, is32 xwind /\ is32 ywind /\ let angle := Ratan2 true false (- xwind) (- ywind) in
  angle < 0 /\ forall a, (2 * angle <= a <= angle / 2) -> wind_direction32 a = 360.
Proof.
  exists (bpow radix2 (-40)), (-1). split; [rewrite <- (Rmult_1_l (bpow _ _)); apply is32_scaled; [reflexivity|lia]|].
  split; [replace (-1) with (IZR (-1) * bpow radix2 0) by (cbn; ring); apply is32_scaled; [reflexivity|lia]|]. cbn zeta.
  assert (TP : 0 < bpow radix2 (-40)) by apply bpow_gt_0. assert (TS : bpow radix2 (-40) * 1000000000 <= 1) by (change (bpow radix2 (-40)) with (/ 1099511627776); lra).
  assert (A : Ratan2 true false (- bpow radix2 (-40)) (- -1) = - atan (bpow radix2 (-40))).
  { unfold Ratan2. rewrite Rltb_t by lra. replace (- bpow radix2 (-40) / - -1) with (- bpow radix2 (-40)) by field. apply atan_opp. }
  rewrite A. destruct (atan_small (bpow radix2 (-40))) as [A1 A2]; [lra|]. split; [lra|]. intros a [H1 H2].
  assert (G : 3 < gpi < 4) by (pose proof PI_bounds; unfold gpi; lra).
  destruct (rnd32_between (-360) (-45) (-40) (a * 180)) as [L1 U1]; [reflexivity|reflexivity|lia|lra|].
  set (r := rnd32 (a * 180)) in *. assert (I : / 4 < / gpi < / 3) by (split; apply Rinv_lt_contravar; lra).
  destruct (rnd32_between (-120) (-11) (-40) (r / gpi)) as [L2 U2]; [reflexivity|reflexivity|lia| |].
  { unfold Rdiv. set (t := bpow radix2 (-40)) in *. set (i := / gpi) in *. clearbody t i r. split; nra. }
  unfold wind_direction32. fold r. set (d := rnd32 (r / gpi)) in *. clearbody d. rewrite Rltb_t by lra. apply rnd32_360. lra.
Qed.
Lemma c87_range a : - (32 / 10) <= a <= 32 / 10 -> 0 <= wind_direction32 a <= 360.
Proof.
  intros H. assert (G : 3 < gpi) by (unfold gpi; lra). destruct (rnd32_between (-600) 600 0 (a * 180)) as [L1 U1]; [reflexivity|reflexivity|lia|change (bpow radix2 0) with 1; lra|]. change (bpow radix2 0) with 1 in *.
  set (r := rnd32 (a * 180)) in *. assert (I : 0 < / gpi < / 3) by (split; [apply Rinv_0_lt_compat; lra|apply Rinv_lt_contravar; lra]).
  destruct (rnd32_between (-200) 200 0 (r / gpi)) as [L2 U2]; [reflexivity|reflexivity|lia|change (bpow radix2 0) with 1; unfold Rdiv; set (i := / gpi) in *; clearbody i r; split; nra|]. change (bpow radix2 0) with 1 in *.
  unfold wind_direction32. fold r. set (d := rnd32 (r / gpi)) in *. clearbody d. destruct (Rltb d 0) eqn:E.
  - apply Rltb_spec in E. destruct (rnd32_between 160 360 0 (d + 360)) as [L3 U3]; [reflexivity|reflexivity|lia|change (bpow radix2 0) with 1; lra|]. change (bpow radix2 0) with 1 in *. lra.
  - assert (0 <= d) by (destruct (Rlt_dec d 0) as [X|X]; [apply Rltb_t in X; congruence|lra]). lra.
Qed.
