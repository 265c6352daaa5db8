(** The ensemble mode of the client's optimal interpolation: the members computed are those of the filter. *)
From Coq Require Import Lra.
From Verif Require Import Base QcTac ListLib RBase P_RBase M_Geo S_Geo M_Stat M_OI S_OI P_OISum P_OI M_Ensi S_EnsMulti S_Ensi P_RSum P_EnsiAlg P_EnsiCell P_EnsiSpec M_COpt M_CUtil S_CUtil M_CCal S_CCal M_COi S_COi M_COiEns S_COiEns P_COiEns.
Local Open Scope Z_scope.

Section Spec.
Variables (ms U : list Z) (b : Z -> Z -> Qc) (sg dl : Qc) (gg cc o x : Z -> Qc).
Let n := zlen ms.
Hypothesis NDM : NoDup ms.
Hypothesis NDU : NoDup U.
Hypothesis Hn : 2 <= n.
Hypothesis Nsg : sg <> 0%Qc.
Hypothesis Pdl : (0 < dl)%Qc.
Hypothesis Hg : forall k, In k U -> (0 < gg k)%Qc.
Hypothesis Hc : forall k, In k U -> (0 < cc k)%Qc.
Notation Y := (Yd ms b).
Notation I := (zrange 0 n).
Notation NN := (qz (n - 1)).
Notation rin := (erin sg gg cc).
Notation N := (eN ms dl).
Notation rr := (error_var sg gg cc).
Variables (P : Z -> Z -> Qc) (l : Z -> R) (v : Z -> Z -> R).
Hypothesis HS : esolved ms U Y sg dl gg cc P l v.
Let PL := proj1 HS.
Let PR := proj1 (proj2 HS).
Let Ort := proj1 (proj2 (proj2 HS)).
Let Dec0 := proj1 (proj2 (proj2 (proj2 HS))).
Let Pos := proj2 (proj2 (proj2 (proj2 HS))).
Lemma ne_ms : ms <> []. Proof. intros E. unfold n in Hn. rewrite E, zlen_nil in Hn. lia. Qed.
Lemma N_pos : (0 < N)%Qc. Proof. apply eN_pos; [exact Hn|exact Pdl]. Qed.
Lemma dl0 : dl <> 0%Qc. Proof. apply dl_nz. exact Pdl. Qed.
Lemma N0 : N <> 0%Qc. Proof. intros E. pose proof N_pos as H. rewrite E in H. discriminate H. Qed.
Lemma NN0 : NN <> 0%Qc. Proof. apply qz_neq0. lia. Qed.
Lemma N_eq : (dl * N)%Qc = NN. Proof. apply eN_NN. exact Pdl. Qed.
Lemma by_N w : (w / N)%Qc = (dl * (w / NN))%Qc.
Proof. rewrite <- N_eq. field. split; [exact N0|exact dl0]. Qed.
Lemma rin_p k : In k U -> (0 < rin k)%Qc.
Proof. intros Hk. unfold erin, Qcdiv. apply mul_pos; [auto|]. apply inv_pos. apply mul_pos; [apply sq_pos; exact Nsg|auto]. Qed.
Lemma pos_nz (q : Qc) : (0 < q)%Qc -> q <> 0%Qc. Proof. intros H E. rewrite E in H. discriminate H. Qed.
Lemma by_rin w k : In k U -> (w / rin k)%Qc = (w * rr k)%Qc.
Proof. intros Hk. unfold erin, error_var. pose proof (pos_nz _ (Hc k Hk)). pose proof (pos_nz _ (Hg k Hk)). field. repeat split; auto. Qed.
Lemma cov_sum f h : cov ms f h = (tot I (fun i => dev ms f (ix ms i) * dev ms h (ix ms i)) / NN)%Qc.
Proof. unfold cov. rewrite tot_ix. reflexivity. Qed.
Lemma centred k : tot I (Y k) = 0%Qc.
Proof. rewrite <- (tot_dev ms (b k) ne_ms). rewrite (tot_ix ms). reflexivity. Qed.
Lemma infl_iff d w : inflated_gain dl U ms b rr d w <-> forall j, In j U -> (tot U (fun k => w k * (tot I (fun i => Y k i * Y j i) / N)) + w j / rin j = d j)%Qc.
Proof.
  unfold inflated_gain, weights.
  assert (E : forall j, In j U -> tot U (fun k => w k * (dl * cov ms (b k) (b j) + (if (k =? j)%Z then rr k else 0)))%Qc =
     (tot U (fun k => w k * (tot I (fun i => Y k i * Y j i) / N)) + w j / rin j)%Qc).
  { intros j Hj. rewrite by_rin by exact Hj. rewrite <- (tot_pick U (fun k => w k * (tot I (fun i => Y k i * Y j i) / N))%Qc j (fun k => w k * rr k)%Qc NDU Hj).
    apply tot_ext. intros k _. rewrite by_N, cov_sum. unfold Yd. destruct (k =? j)%Z; ring. }
  split; intros H j Hj; [rewrite <- E by exact Hj; apply H; exact Hj|rewrite E by exact Hj; apply H; exact Hj].
Qed.
Lemma infl_uniq d w : inflated_gain dl U ms b rr d w -> unique_on U (inflated_gain dl U ms b rr d) w.
Proof.
  intros H. split; [exact H|]. intros w' H' k Hk. exact (gain_unique n U Y rin N N_pos rin_p w w' d (proj1 (infl_iff d w) H) (proj1 (infl_iff d w') H') k Hk).
Qed.
Notation d := (fun k => o k - avg ms (b k))%Qc.
Notation xp := (fun i => dev ms x (ix ms i)).
Definition fmean : Qc := (avg ms x + tot I (fun i => xp i * wvec n U Y rin P d i))%Qc.
Lemma fmean_ok : filter_mean dl U ms x b o rr fmean.
Proof.
  exists (vvec n U Y rin P d). split.
  - apply infl_uniq. apply (proj2 (infl_iff _ _)). intros j Hj. apply (v_solves n U Y rin N N_pos rin_p P PR d j Hj).
  - unfold fmean. f_equal. rewrite (v_mean n U Y rin N N_pos P PR d xp). apply tot_ext. intros k _. rewrite by_N, cov_sum. reflexivity.
Qed.
Definition fvar : Qc := tot I (fun i => xp i * zvec n P xp i)%Qc.
Lemma fvar_ok : filter_var dl U ms x b rr fvar.
Proof.
  exists (tvec n Y rin P xp). split.
  - apply infl_uniq. apply (proj2 (infl_iff _ _)). intros j Hj. rewrite (t_solves n U Y rin N N_pos rin_p P PR xp j Hj). rewrite by_N, cov_sum. reflexivity.
  - unfold fvar. rewrite (t_spread n U Y rin N N_pos P PR xp). rewrite by_N, (cov_sum x x). unfold Qcminus. do 2 f_equal. apply tot_ext. intros k _. rewrite by_N, cov_sum. reflexivity.
Qed.
Lemma fvar_range : (0 <= fvar)%Qc /\ (fvar <= dl * cov ms x x)%Qc.
Proof.
  split. { apply (t_nonneg n U Y rin N N_pos rin_p P PR xp). }
  unfold fvar. rewrite (t_spread n U Y rin N N_pos P PR xp). rewrite cov_sum, <- by_N.
  set (u := tvec n Y rin P xp).
  assert (E : tot U (fun k => u k * (tot I (fun i => xp i * Y k i) / N))%Qc =
    (tot I (fun i => tot U (fun k => u k * Y k i) * tot U (fun k => u k * Y k i)) / N + tot U (fun k => u k * u k / rin k))%Qc).
  { rewrite (tot_ext U _ (fun k => tot I (fun i => tot U (fun j => u j * Y j i) * (u k * Y k i)) / N + u k * u k / rin k)%Qc).
    - rewrite tot_add, tot_div. f_equal. f_equal. rewrite tot_swap. apply tot_ext. intros i _. rewrite tot_mul_l. reflexivity.
    - intros k Hk. rewrite <- (t_solves n U Y rin N N_pos rin_p P PR xp k Hk). fold u. rewrite Qcmult_plus_distr_r. f_equal; [|unfold Qcdiv; ring].
      rewrite <- tot_div, <- tot_mul_l. rewrite (tot_ext U _ (fun j => tot I (fun i => u k * (u j * (Y j i * Y k i)) / N))%Qc).
      + rewrite tot_swap. apply tot_ext. intros i _. rewrite tot_div. f_equal. rewrite <- tot_mul_r. apply tot_ext. intros; ring.
      + intros j _. rewrite tot_div, !tot_mul_l. unfold Qcdiv. ring. }
  rewrite E.
  assert (NI : (0 <= / N)%Qc) by (apply Qclt_le_weak, inv_pos; exact N_pos).
  assert (P1 : (0 <= tot I (fun i => tot U (fun k => u k * Y k i) * tot U (fun k => u k * Y k i)) / N)%Qc) by (apply mul_nonneg; [apply tot_nonneg; intros; apply sq_nonneg|exact NI]).
  assert (P2 : (0 <= tot U (fun k => u k * u k / rin k))%Qc).
  { apply tot_nonneg. intros k Hk. apply mul_nonneg; [apply sq_nonneg|]. apply Qclt_le_weak, inv_pos, rin_p; exact Hk. }
  revert P1 P2. generalize (tot I (fun i => tot U (fun k => u k * Y k i) * tot U (fun k => u k * Y k i)) / N)%Qc (tot U (fun k => u k * u k / rin k))%Qc (tot I (fun i => xp i * xp i) / N)%Qc.
  intros p q r P1 P2. qlra.
Qed.
(** the eigenvalues divided by delta *)
Definition l' (k : Z) : R := (l k / qr dl)%R.
Lemma rdl : (0 < qr dl)%R. Proof. pose proof (qr_lt 0 dl Pdl) as H. rewrite qr_0 in H. exact H. Qed.
Lemma Dec' i j : In i I -> In j I -> qr (amat N P i j) = rtot I (fun k => v i k * l' k * v j k)%R.
Proof.
  intros Hi Hj. pose proof rdl as Hd. pose proof (Dec0 i j Hi Hj) as E. rewrite (amat_scale ms dl Pdl), qr_mul in E.
  rewrite (rtot_ext _ _ (fun k => (v i k * l k * v j k) * / qr dl)%R) by (intros; unfold l'; field; lra). rewrite rtot_mul_r.
  change (zrange 0 (zlen ms)) with I in E. rewrite <- E. field. lra.
Qed.
Notation W := (root n v l).
Notation W' := (root n v l').
Lemma W_scale i j : In i I -> In j I -> W i j = (sqrt (qr dl) * W' i j)%R.
Proof.
  intros Hi Hj. unfold root. rewrite <- rtot_mul_l. apply rtot_ext. intros k Hk. unfold l'. pose proof rdl as Hd. rewrite (sqrt_div (l k) (qr dl) (Pos k Hk) Hd).
  pose proof (sqrt_lt_R0 _ Hd). field. lra.
Qed.
Lemma sqrt_dl : (sqrt (qr dl) * sqrt (qr dl) = qr dl)%R. Proof. apply sqrt_sqrt. pose proof rdl. lra. Qed.
Lemma ftrans_ok p : (forall i, 0 <= i < n -> p (ix ms i) = i) -> filter_transform dl U ms b rr (fun e f => W (p e) (p f)).
Proof.
  intros Hp. split; [|split].
  - intros e f _ _. apply root_sym.
  - intros c. rewrite rtot_ix. fold n. rewrite (rtot_ext _ _ (fun i => c (ix ms i) * rtot I (fun j => W i j * c (ix ms j)))%R).
    + apply root_psd.
    + intros i Hi. apply in_zrange in Hi. rewrite Hp by exact Hi. f_equal. rewrite rtot_ix. apply rtot_ext. intros j Hj. apply in_zrange in Hj. rewrite Hp by exact Hj. reflexivity.
  - intros e f He Hf. apply In_ix in He as (i & Hi & <-). apply In_ix in Hf as (j & Hj & <-). fold n in Hi, Hj. rewrite !Hp by assumption.
    assert (Eu : runit (ix ms i) (ix ms j) = runit i j).
    { unfold runit. destruct (Z.eqb_spec i j) as [-> |Ne]; [rewrite Z.eqb_refl; reflexivity|]. destruct (Z.eqb_spec (ix ms i) (ix ms j)) as [E|_]; [|reflexivity].
      exfalso. apply Ne. exact (ix_inj ms i j NDM Hi Hj E). }
    rewrite Eu. rewrite <- (W_prec n U Y rin N N_pos rin_p P PL PR l' v Ort Dec' i j) by (apply in_zrange; assumption).
    rewrite rtot_ix. apply rtot_ext. intros a Ha. pose proof Ha as Ha'. apply in_zrange in Ha. rewrite Hp by exact Ha. rewrite rtot_ix. apply rtot_ext. intros c Hc0. pose proof Hc0 as Hc'. apply in_zrange in Hc0. rewrite Hp by exact Hc0.
    rewrite !W_scale by (try assumption; apply in_zrange; assumption).
    assert (Eq : unit_ (ix ms c) (ix ms j) = unit_ c j).
    { unfold unit_. destruct (Z.eqb_spec c j) as [-> |Ne]; [rewrite Z.eqb_refl; reflexivity|]. destruct (Z.eqb_spec (ix ms c) (ix ms j)) as [E|_]; [|reflexivity].
      exfalso. apply Ne. exact (ix_inj ms c j NDM Hc0 Hj E). }
    assert (Ep : (pinv U Y rin N c j / N)%Qc = (dl * filter_precision dl U ms b rr (ix ms c) (ix ms j))%Qc).
    { unfold filter_precision, pinv. fold n. rewrite Eq. rewrite (tot_ext U (fun k => Y k c * rin k * Y k j)%Qc (fun k => dev ms (b k) (ix ms c) * dev ms (b k) (ix ms j) / rr k)%Qc).
      - set (t := tot U _). clearbody t. transitivity (t / N + unit_ c j)%Qc; [field; exact N0|]. rewrite by_N. field. split; [exact NN0|exact dl0].
      - intros k Hk. unfold Yd, erin, error_var. pose proof (pos_nz _ (Hc k Hk)). pose proof (pos_nz _ (Hg k Hk)). field. repeat split; auto. }
    rewrite Ep, qr_mul. pose proof sqrt_dl as Es. set (sd := sqrt (qr dl)) in *. clearbody sd. rewrite <- Es. ring.
Qed.
(** the members produced *)
Section Out.
Variable a : Z -> R.
Definition fmem (e : Z) : R := (qr (avg ms x) + rtot I (fun k => qr (xp k) * (W k e + qr (wvec n U Y rin P d k))))%R.
Hypothesis Ha : forall e, 0 <= e < n -> a (ix ms e) = fmem e.
Lemma fmem_split e : fmem e = (qr fmean + rtot I (fun k => qr (xp k) * W k e))%R.
Proof.
  unfold fmem, fmean. rewrite qr_add, qr_tot. rewrite (rtot_ext I (fun k => qr (xp k * wvec n U Y rin P d k)%Qc) (fun k => qr (xp k) * qr (wvec n U Y rin P d k))%R) by (intros; apply qr_mul).
  rewrite (rtot_ext I (fun k => qr (xp k) * (W k e + qr (wvec n U Y rin P d k)))%R (fun k => qr (xp k) * W k e + qr (xp k) * qr (wvec n U Y rin P d k))%R) by (intros; ring).
  rewrite rtot_add. ring.
Qed.
Lemma xp0 : tot I xp = 0%Qc. Proof. rewrite <- (tot_dev ms x ne_ms). rewrite (tot_ix ms). reflexivity. Qed.
Lemma pert_scale e : 0 <= e < n -> rtot I (fun k => qr (xp k) * W k e)%R = (sqrt (qr dl) * rtot I (fun k => qr (xp k) * W' k e))%R.
Proof. intros He. rewrite <- rtot_mul_l. apply rtot_ext. intros k Hk. rewrite W_scale; [ring|exact Hk|apply in_zrange; exact He]. Qed.
Lemma fa_mean : ravg ms a = qr fmean.
Proof.
  unfold ravg. fold n. rewrite rtot_ix. fold n.
  rewrite (rtot_ext I _ (fun e => qr fmean + sqrt (qr dl) * rtot I (fun k => qr (xp k) * W' k e))%R).
  2:{ intros e He. apply in_zrange in He. rewrite Ha by exact He. rewrite fmem_split, pert_scale by exact He. reflexivity. }
  rewrite rtot_add, rtot_const, zlen_zrange, rtot_mul_l. replace (Z.max 0 (n - 0)) with n by lia.
  rewrite (pert_sum n U Y rin N N_pos rin_p (fun k _ => centred k) P PL PR l' v Ort Dec' xp xp0).
  field. apply not_0_IZR. lia.
Qed.
Lemma fa_dev e : 0 <= e < n -> (a (ix ms e) - ravg ms a = rtot I (fun k => qr (xp k) * W k e))%R.
Proof. intros He. rewrite fa_mean, Ha by exact He. rewrite fmem_split. ring. Qed.
Lemma fa_var : rvar ms a = qr fvar.
Proof.
  unfold rvar. rewrite rtot_ix. fold n.
  rewrite (rtot_ext I _ (fun e => qr dl * (rtot I (fun k => qr (xp k) * W' k e) * rtot I (fun k => qr (xp k) * W' k e)))%R).
  2:{ intros e He. apply in_zrange in He. rewrite fa_dev by exact He. rewrite pert_scale by exact He. pose proof sqrt_dl as Es. set (sd := sqrt (qr dl)) in *. clearbody sd. rewrite <- Es. ring. }
  rewrite rtot_mul_l. rewrite (pert_sq n U Y rin N N_pos rin_p P PR l' v Ort Dec' xp). fold fvar. rewrite <- Rmult_assoc, <- qr_mul, N_eq, qr_z. field. apply not_0_IZR. lia.
Qed.
Lemma fa_member p e : (forall i, 0 <= i < n -> p (ix ms i) = i) -> In e ms -> (a e = qr fmean + rtot ms (fun f => qr (dev ms x f) * W (p f) (p e)))%R.
Proof.
  intros Hp He. apply In_ix in He as (i & Hi & <-). fold n in Hi. rewrite Hp by exact Hi. pose proof (fa_dev i Hi) as E. rewrite fa_mean in E.
  rewrite rtot_ix. fold n. rewrite (rtot_ext I (fun i0 => qr (dev ms x (ix ms i0)) * W (p (ix ms i0)) i)%R (fun k => qr (xp k) * W k i)%R).
  - rewrite <- E. ring.
  - intros k Hk. apply in_zrange in Hk. rewrite Hp by exact Hk. reflexivity.
Qed.
Lemma fa_filtered : filtered dl U ms x b o rr a.
Proof.
  destruct (positions ms NDM) as (p & Hp & _). exists fmean, fvar, (fun e f => W (p e) (p f)). split; [exact fmean_ok|]. split; [exact fvar_ok|]. split; [apply ftrans_ok; exact Hp|].
  split; [exact fa_mean|]. split; [exact fa_var|]. split; [exact fvar_range|]. intros e He. apply fa_member; assumption.
Qed.
End Out.
End Spec.
