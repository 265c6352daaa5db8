(** Ensemble correlations and the stations' perturbations. *)
From Coq Require Import Lra.
From Verif Require Import Base QcTac ListLib RBase P_RBase M_Geo S_Geo M_Stat S_Stat P_Stat M_OI S_OI P_OISum P_OI P_OISolve P_OITotal M_EnsMulti M_Ensi M_EnsDyn P_EnsSel P_EnsMulti S_EnsMulti S_Ensi S_EnsDyn P_RSum P_EnsiCell P_EnsiFin.
Local Open Scope Z_scope.

(** *** valid members *)
Lemma members_all nE fs : (forall f, In f fs -> exists n, rect n nE f) ->
  members nE fs = Ok (filter (fun e => forallb (fun f => ok_in f e) fs) (zrange 0 nE)).
Proof.
  intros R. unfold members.
  assert (K1 : forall e l b, 0 <= e < nE -> (forall f, In f l -> exists n, rect n nE f) ->
     foldM (fun b f => c <- all_valid f e ;; Ok (b && c)%bool) b l = Ok (b && forallb (fun f => ok_in f e) l)%bool).
  { intros e. induction l as [|f l IH]; intros b He Hl; cbn [foldM forallb]; [rewrite andb_true_r; reflexivity|].
    destruct (Hl f (or_introl eq_refl)) as [n Rf]. rewrite (all_valid_ok _ _ _ _ Rf He). cbn [bind]. rewrite IH by (try assumption; intros; apply Hl; right; assumption).
    rewrite andb_assoc. reflexivity. }
  assert (K : forall l acc, (forall e, In e l -> 0 <= e < nE) ->
    foldM (fun acc e => b <- foldM (fun b f => c <- all_valid f e ;; Ok (b && c)%bool) true fs ;; Ok (if b then acc ++ [e] else acc)) acc l =
    Ok (acc ++ filter (fun e => forallb (fun f => ok_in f e) fs) l)).
  { induction l as [|e l IH]; intros acc Hl; cbn [foldM filter]; [rewrite app_nil_r; reflexivity|].
    rewrite K1 by (try assumption; apply Hl; left; reflexivity). cbn [bind andb].
    destruct (forallb (fun f => ok_in f e) fs); rewrite IH by (intros; apply Hl; right; assumption); [|reflexivity]. rewrite <- app_assoc. reflexivity. }
  rewrite K; [reflexivity|]. intros e He. apply in_zrange in He. exact He.
Qed.
(** *** perturbations in units of the standard deviation *)
Definition steady_dec (ms : list Z) (f : Z -> Qc) : {steady ms f} + {~ steady ms f} := Rle_dec _ _.
Definition zsc (ms : list Z) (f : Z -> Qc) (e : Z) : R :=
  if steady_dec ms f then 0%R else (1 / sqrt (IZR (zlen ms - 1)) * qr (dev ms f e) / sdev ms f)%R.
Lemma finites_fin (f : Z -> Qc) ms : finites (map (fun e => Fin (f e)) ms) = map f ms.
Proof. induction ms as [|e ms IH]; [reflexivity|]. cbn [map finites]. rewrite IH. reflexivity. Qed.
Lemma qsum_tot f ms : qsum (map f ms) = tot ms f.
Proof. reflexivity. Qed.
Lemma qmean_avg ms f : qmean (map f ms) = avg ms f.
Proof. unfold qmean, avg, qlen. rewrite zlen_map. reflexivity. Qed.
Lemma qvar_tot ms f : qvar (map f ms) = (tot ms (fun e => dev ms f e * dev ms f e) / qz (zlen ms))%Qc.
Proof. unfold qvar, qlen. rewrite map_map, zlen_map, qmean_avg. reflexivity. Qed.
Lemma avg_one e f : avg [e] f = f e.
Proof. unfold avg. rewrite tot_cons. unfold tot. cbn [map fold_right]. change (zlen [e]) with 1. change (qz 1) with 1%Qc. field. discriminate. Qed.
Lemma not_steady_two ms f : NoDup ms -> ms <> [] -> ~ steady ms f -> 2 <= zlen ms.
Proof.
  intros ND NE H. destruct ms as [|e ms]; [congruence|]. destruct ms as [|e' ms]; [|rewrite !zlen_cons; pose proof (zlen_nonneg ms); lia].
  exfalso. apply H. unfold steady, sdev. rewrite tot_cons. unfold dev. rewrite avg_one. unfold tot. cbn [map fold_right].
  replace (((f e - f e) * (f e - f e) + 0) / qz (zlen [e]))%Qc with 0%Qc. { rewrite qr_0, sqrt_0. lra. }
  change (zlen [e]) with 1. change (qz 1) with 1%Qc. field. discriminate.
Qed.
Lemma normed_ok E ms f : NoDup ms -> ms <> [] -> normed E (map (fun e => Fin (f e)) ms) = Ok (map (fun e => RF (zsc ms f e)) ms).
Proof.
  intros ND NE. unfold normed. rewrite calc_mean, (calc_var_std E _ Variance (or_introl eq_refl)), finites_fin. cbn [bind stat_eqb].
  assert (N2 : map f ms <> []) by (intros H; apply map_eq_nil in H; congruence).
  assert (EM : (match map f ms with [] => MV | _ :: _ => Fin (qmean (map f ms)) end) = Fin (avg ms f)) by (rewrite <- qmean_avg; destruct (map f ms); [congruence|reflexivity]).
  assert (EV : (match map f ms with [] => MV | _ :: _ => Fin (qvar (map f ms)) end) = Fin (tot ms (fun e => dev ms f e * dev ms f e) / qz (zlen ms))%Qc) by (rewrite <- qvar_tot; destruct (map f ms); [congruence|reflexivity]).
  rewrite EM, EV. cbn [v2r is_valid negb orb]. rewrite rsqrt_RF.
  2:{ rewrite <- qvar_tot. rewrite <- qr_0. apply qr_le. apply qvar_nonneg. }
  cbn [r_valid negb orb]. fold (sdev ms f). f_equal. unfold min_std, zsc. destruct (steady_dec ms f) as [Hs|Hs].
  - rewrite rleb_t by exact Hs. rewrite map_map. reflexivity.
  - pose proof (not_steady_two ms f ND NE Hs) as H2. unfold steady in Hs. rewrite rleb_f by lra. rewrite map_map, zlen_map. apply map_ext. intros e. cbn [vsub v2r].
    assert (P : (0 < IZR (zlen ms - 1))%R) by (apply IZR_lt; lia).
    unfold rz. rewrite rsqrt_RF by lra. rewrite rdiv_RF by (apply Rgt_not_eq, sqrt_lt_R0; exact P). unfold vsub, vadd, vneg, v2r, rmul.
    rewrite rdiv_RF by lra. reflexivity.
Qed.
Lemma inner_corr ms f h c : NoDup ms -> ms <> [] -> correlation ms f h c ->
  rtot ms (fun e => zsc ms f e * zsc ms h e)%R = (IZR (zlen ms) / IZR (zlen ms - 1) * c)%R.
Proof.
  intros ND NE [C0 C1]. unfold zsc. destruct (steady_dec ms f) as [Hf|Hf].
  { rewrite C0 by auto. rewrite rtot_zero; [ring|]. intros; ring. }
  destruct (steady_dec ms h) as [Hh|Hh].
  { rewrite C0 by auto. rewrite rtot_zero; [ring|]. intros; ring. }
  specialize (C1 Hf Hh). pose proof (not_steady_two ms f ND NE Hf) as H2. unfold steady in Hf, Hh.
  assert (P : (0 < IZR (zlen ms - 1))%R) by (apply IZR_lt; lia). assert (P2 : (0 < IZR (zlen ms))%R) by (apply IZR_lt; lia).
  pose proof (sqrt_lt_R0 _ P) as P3.
  rewrite (rtot_ext _ _ (fun e => qr (dev ms f e * dev ms h e)%Qc * (1 / (IZR (zlen ms - 1) * sdev ms f * sdev ms h)))%R).
  2:{ intros e _. rewrite qr_mul. rewrite <- (sqrt_sqrt (IZR (zlen ms - 1))) at 3 by lra. field. repeat split; lra. }
  rewrite rtot_mul_r, <- qr_tot.
  assert (ET : qr (tot ms (fun e => dev ms f e * dev ms h e)%Qc) = (c * sdev ms f * sdev ms h * IZR (zlen ms))%R).
  { rewrite C1, qr_div, qr_z. field. lra. }
  rewrite ET. field. repeat split; lra.
Qed.
Lemma has_correlation ms f h : exists c, correlation ms f h c.
Proof.
  destruct (steady_dec ms f) as [Hf|Hf]; [exists 0%R; split; [reflexivity|tauto]|]. destruct (steady_dec ms h) as [Hh|Hh]; [exists 0%R; split; [reflexivity|tauto]|].
  exists (qr (tot ms (fun e => dev ms f e * dev ms h e) / qz (zlen ms))%Qc / (sdev ms f * sdev ms h))%R. split; [tauto|]. intros _ _.
  unfold steady in Hf, Hh. field. split; lra.
Qed.
(** *** explicit sums *)
Definition rfold (n : Z) (h : Z -> rv) : rv := fold_left (fun acc i => radd acc (h i)) (zrange 0 n) (rz 0).
Lemma rsumM_fold n f h : (forall i, 0 <= i < n -> f i = Ok (h i)) -> rsumM n f = Ok (rfold n h).
Proof.
  intros H. unfold rsumM, rfold.
  assert (K : forall l a, (forall i, In i l -> f i = Ok (h i)) -> foldM (fun acc i => x <- f i ;; Ok (radd acc x)) a l = Ok (fold_left (fun acc i => radd acc (h i)) l a)).
  { induction l as [|i l IH]; intros a Hl; cbn [foldM fold_left]; [reflexivity|]. rewrite Hl by (left; reflexivity). cbn [bind]. apply IH. intros; apply Hl; right; assumption. }
  apply K. intros i Hi. apply in_zrange in Hi. auto.
Qed.
Lemma rfold_RF n h x : (forall i, 0 <= i < n -> h i = RF (x i)) -> rfold n h = RF (rtot (zrange 0 n) x).
Proof.
  intros H. assert (E : rsumM n (fun i => Ok (h i)) = Ok (rfold n h)) by (apply rsumM_fold; reflexivity).
  rewrite (rsumM_ok n _ x) in E by (intros i Hi; rewrite H by exact Hi; reflexivity). injection E as <-. reflexivity.
Qed.
Lemma rdot_ok m (f h : Z -> R) : 0 <= m -> rdot m (map (fun e => RF (f e)) (zrange 0 m)) (map (fun e => RF (h e)) (zrange 0 m)) = Ok (RF (rtot (zrange 0 m) (fun e => f e * h e)%R)).
Proof. intros Hm. apply rsumM_ok. intros i Hi. rewrite !znth_map, znth_zrange by lia. reflexivity. Qed.
(** *** the stations *)
Lemma station_norms_ok E nY nS nE m f (b : Z -> Z -> Qc) : 0 <= nY -> 0 < m <= nE -> rect nS nE f -> members_at nS m f b ->
  (nS <= nY -> exists gZ, station_norms E nY nS (zrange 0 m) f = Ok gZ /\ forall k, 0 <= k < nS -> znth gZ k = Ok (map (fun e => RF (zsc (zrange 0 m) (b k) e)) (zrange 0 m))) /\
  (nY < nS -> station_norms E nY nS (zrange 0 m) f = UB).
Proof.
  intros HY Hm [R1 R2] HB. unfold station_norms. set (step := fun acc i => _).
  assert (HS : forall acc i, 0 <= i < nS -> step acc i = zset acc i (map (fun e => RF (zsc (zrange 0 m) (b i) e)) (zrange 0 m))).
  { intros acc i Hi. unfold step. destruct (znth_some f i ltac:(lia)) as [row Er]. rewrite Er. cbn [bind].
    rewrite (mapM_ok _ (fun e => Fin (b i e))).
    2:{ intros e He. apply in_zrange in He. specialize (HB i e Hi He). unfold get2 in HB. rewrite Er in HB. exact HB. }
    cbn [bind]. rewrite normed_ok; [reflexivity|apply NoDup_zrange|]. rewrite zrange_cons by lia. discriminate. }
  assert (K : forall j : nat, Z.of_nat j <= nS -> Z.of_nat j <= nY -> exists r, foldM step (init1 nY (init1 (zlen (zrange 0 m)) RMV)) (zrange 0 (Z.of_nat j)) = Ok r /\ zlen r = nY /\
     forall k, 0 <= k < Z.of_nat j -> znth r k = Ok (map (fun e => RF (zsc (zrange 0 m) (b k) e)) (zrange 0 m))).
  { induction j as [|j IH]; intros H1 H2.
    - eexists. split; [reflexivity|]. split; [apply zlen_init1; lia|intros; lia].
    - destruct IH as (r & E1 & E2 & E3); try lia. rewrite (zrange_snoc 0 (Z.of_nat (S j))) by lia. replace (Z.of_nat (S j) - 1) with (Z.of_nat j) by lia.
      rewrite foldM_app, E1. cbn [bind foldM]. rewrite HS by lia. rewrite zset_Ok by lia. eexists. split; [reflexivity|]. rewrite zlen_lset. split; [exact E2|].
      intros k Hk. rewrite znth_lset by lia. destruct (Z.eqb_spec k (Z.of_nat j)) as [-> |N]; [reflexivity|]. apply E3. lia. }
  pose proof (zlen_nonneg f) as Hf. split; intros H.
  - destruct (K (Z.to_nat nS) ltac:(lia) ltac:(lia)) as (r & E1 & _ & E3). rewrite Z2Nat.id in * by lia. exists r. auto.
  - destruct (K (Z.to_nat nY) ltac:(lia) ltac:(lia)) as (r & E1 & E2 & _). rewrite Z2Nat.id in * by lia.
    rewrite (zrange_app 0 nY nS) by lia. rewrite foldM_app, E1. cbn [bind]. rewrite (zrange_cons nY nS) by lia. cbn [foldM]. rewrite HS by lia.
    unfold zset. replace ((nY <? 0) || (zlen r <=? nY))%bool with true by lia. reflexivity.
Qed.
