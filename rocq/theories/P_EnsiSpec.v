(** From positions in lists to members and stations: the code's transform is the one specified. *)
From Coq Require Import Lra.
From Verif Require Import Base QcTac ListLib RBase P_RBase M_Geo S_Geo M_OI S_OI P_OISum P_OI M_Ensi S_EnsMulti S_Ensi P_RSum P_EnsiAlg P_EnsiCell.
Local Open Scope Z_scope.

Lemma tot_const U c : tot U (fun _ => c) = (qz (zlen U) * c)%Qc.
Proof.
  induction U as [|k U IH]; [rewrite zlen_nil, qz_0; unfold tot; cbn; ring|]. rewrite tot_cons, IH, zlen_cons, qz_add, qz_1. ring.
Qed.
Lemma rtot_const U c : rtot U (fun _ => c) = (IZR (zlen U) * c)%R.
Proof.
  induction U as [|k U IH]; [rewrite zlen_nil; unfold rtot; cbn; ring|]. rewrite rtot_cons, IH, zlen_cons, plus_IZR. ring.
Qed.
Lemma tot_dev ms f : ms <> [] -> tot ms (dev ms f) = 0%Qc.
Proof.
  intros H. unfold dev. rewrite tot_sub, tot_const. unfold avg.
  assert (qz (zlen ms) <> 0%Qc). { apply qz_neq0. destruct ms; [congruence|]. rewrite zlen_cons. pose proof (zlen_nonneg ms). lia. }
  field. assumption.
Qed.
(** positions of the elements of a list *)
Lemma positions U : NoDup U -> exists p : Z -> Z, (forall i, 0 <= i < zlen U -> p (ix U i) = i) /\ (forall k, In k U -> 0 <= p k < zlen U /\ ix U (p k) = k).
Proof.
  intros ND.
  assert (E : exists p : Z -> Z, forall i, 0 <= i < zlen U -> p (ix U i) = i).
  { induction U as [|u U IH]; [exists (fun _ => 0); intros i Hi; exfalso; unfold zlen in Hi; cbn in Hi; lia|]. inversion ND as [|? ? N1 N2]; subst.
    destruct (IH N2) as [p Hp]. exists (fun k => if k =? u then 0 else p k + 1). intros i Hi. rewrite zlen_cons in Hi.
    destruct (Z.eq_dec i 0) as [-> |Ni]; [cbn; rewrite Z.eqb_refl; reflexivity|].
    assert (Ei : ix (u :: U) i = ix U (i - 1)). { unfold ix. replace (Z.to_nat i) with (S (Z.to_nat (i - 1))) by lia. reflexivity. }
    rewrite Ei. destruct (Z.eqb_spec (ix U (i - 1)) u) as [Eq|_]; [exfalso; apply N1; rewrite <- Eq; apply ix_In; lia|]. rewrite Hp by lia. lia. }
  destruct E as [p Hp]. exists p. split; [exact Hp|]. intros k Hk. apply In_ix in Hk as (i & Hi & <-). rewrite Hp by exact Hi. auto.
Qed.

Section Spec.
Variables (ms U : list Z) (b : Z -> Z -> Qc) (s gg o x : Z -> Qc).
Let n := zlen ms.
Hypothesis NDM : NoDup ms.
Hypothesis NDU : NoDup U.
Hypothesis Hn : 2 <= n.
Hypothesis Hg : forall k, In k U -> (0 < gg k)%Qc.
Hypothesis Hs : forall k, In k U -> s k <> 0%Qc.
Definition Yd (k i : Z) : Qc := dev ms (b k) (ix ms i).
Notation I := (zrange 0 n).
Notation NN := (qz (n - 1)).
Notation rin := (rin gg s).
Variables (P : Z -> Z -> Qc) (l : Z -> R) (v : Z -> Z -> R).
Hypothesis HS : solved ms U Yd gg s P l v.
Let PL := proj1 HS.
Let PR := proj1 (proj2 HS).
Let Ort := proj1 (proj2 (proj2 HS)).
Let Dec := proj2 (proj2 (proj2 HS)).
Lemma msne : ms <> []. Proof. intros E. unfold n in Hn. rewrite E, zlen_nil in Hn. lia. Qed.
Lemma HN : (0 < NN)%Qc. Proof. apply qz_pos. lia. Qed.
Lemma ssq k : In k U -> (s k * s k)%Qc <> 0%Qc.
Proof. intros Hk E. apply (Hs k Hk). apply sq_zero. exact E. Qed.
Lemma gnz k : In k U -> gg k <> 0%Qc.
Proof. intros Hk E. pose proof (Hg k Hk) as H. rewrite E in H. discriminate H. Qed.
Lemma rinp k : In k U -> (0 < rin k)%Qc.
Proof.
  intros Hk. unfold P_EnsiCell.rin, Qcdiv. rewrite <- (Qcmult_0_l (/ (s k * s k))%Qc). apply Qcmult_lt_compat_r; [|auto]. apply inv_pos.
  destruct (Qcle_lt_or_eq _ _ (sq_nonneg (s k))) as [H|H]; [exact H|]. exfalso. apply (Hs k Hk). apply sq_zero. auto.
Qed.
Lemma rin_div w k : In k U -> (w / rin k)%Qc = (w * (s k * s k / gg k))%Qc.
Proof. intros Hk. unfold P_EnsiCell.rin. pose proof (ssq k Hk). pose proof (gnz k Hk). field. repeat split; auto. Qed.
Lemma cov_Y f h : cov ms f h = (tot I (fun i => dev ms f (ix ms i) * dev ms h (ix ms i)) / NN)%Qc.
Proof. unfold cov. rewrite tot_ix. reflexivity. Qed.
Lemma Y_centred k : tot I (Yd k) = 0%Qc.
Proof. rewrite <- (tot_dev ms (b k) msne). rewrite (tot_ix ms). reflexivity. Qed.
Lemma gain_iff d w : gain U ms b s gg d w <-> forall j, In j U -> (tot U (fun k => w k * (tot I (fun i => Yd k i * Yd j i) / NN)) + w j / rin j = d j)%Qc.
Proof.
  unfold gain, weights.
  assert (E : forall j, In j U -> tot U (fun k => w k * (cov ms (b k) (b j) + (if (k =? j)%Z then s k * s k / gg k else 0)))%Qc =
     (tot U (fun k => w k * (tot I (fun i => Yd k i * Yd j i) / NN)) + w j / rin j)%Qc).
  { intros j Hj. rewrite rin_div by exact Hj. rewrite <- (tot_pick U (fun k => w k * (tot I (fun i => Yd k i * Yd j i) / NN))%Qc j (fun k => w k * (s k * s k / gg k))%Qc NDU Hj).
    apply tot_ext. intros k _. rewrite cov_Y. unfold Yd. destruct (k =? j)%Z; ring. }
  split; intros H j Hj; [rewrite <- E by exact Hj; apply H; exact Hj|rewrite E by exact Hj; apply H; exact Hj].
Qed.
Lemma gain_uniq d w : gain U ms b s gg d w -> unique_on U (gain U ms b s gg d) w.
Proof.
  intros H. split; [exact H|]. intros w' H' k Hk. exact (gain_unique n U Yd rin NN HN rinp w w' d (proj1 (gain_iff d w) H) (proj1 (gain_iff d w') H') k Hk).
Qed.
Notation d := (fun k => o k - avg ms (b k))%Qc.
Notation xp := (fun i => dev ms x (ix ms i)).
Definition mval : Qc := (avg ms x + tot I (fun i => xp i * wvec n U Yd rin P d i))%Qc.
Lemma mean_ok : kalman_mean U ms x b o s gg mval.
Proof.
  exists (vvec n U Yd rin P d). split.
  - apply gain_uniq. apply (proj2 (gain_iff _ _)). intros j Hj. apply (v_solves n U Yd rin NN HN rinp P PR d j Hj).
  - unfold mval. f_equal. rewrite (v_mean n U Yd rin NN HN P PR d xp). apply tot_ext. intros k _. rewrite cov_Y. reflexivity.
Qed.
Definition vval : Qc := tot I (fun i => xp i * zvec n P xp i)%Qc.
Lemma var_ok : kalman_var U ms x b s gg vval.
Proof.
  exists (tvec n Yd rin P xp). split.
  - apply gain_uniq. apply (proj2 (gain_iff _ _)). intros j Hj. rewrite (t_solves n U Yd rin NN HN rinp P PR xp j Hj). rewrite cov_Y. reflexivity.
  - unfold vval. rewrite (t_spread n U Yd rin NN HN P PR xp). rewrite (cov_Y x x). unfold Qcminus. do 2 f_equal. apply tot_ext. intros k _. rewrite cov_Y. reflexivity.
Qed.
Lemma var_range : (0 <= vval)%Qc /\ (vval <= cov ms x x)%Qc.
Proof.
  split. { apply (t_nonneg n U Yd rin NN HN rinp P PR xp). }
  (* u' (S + R) u is non-negative *)
  unfold vval. rewrite (t_spread n U Yd rin NN HN P PR xp). rewrite cov_Y.
  set (u := tvec n Yd rin P xp).
  assert (E : tot U (fun k => u k * (tot I (fun i => xp i * Yd k i) / NN))%Qc =
    (tot I (fun i => tot U (fun k => u k * Yd k i) * tot U (fun k => u k * Yd k i)) / NN + tot U (fun k => u k * u k / rin k))%Qc).
  { rewrite (tot_ext U _ (fun k => tot I (fun i => tot U (fun j => u j * Yd j i) * (u k * Yd k i)) / NN + u k * u k / rin k)%Qc).
    - rewrite tot_add, tot_div. f_equal. f_equal. rewrite tot_swap. apply tot_ext. intros i _. rewrite tot_mul_l. reflexivity.
    - intros k Hk. rewrite <- (t_solves n U Yd rin NN HN rinp P PR xp k Hk). fold u. rewrite Qcmult_plus_distr_r. f_equal; [|unfold Qcdiv; ring].
      rewrite <- tot_div, <- tot_mul_l. rewrite (tot_ext U _ (fun j => tot I (fun i => u k * (u j * (Yd j i * Yd k i)) / NN))%Qc).
      + rewrite tot_swap. apply tot_ext. intros i _. rewrite tot_div. f_equal. rewrite <- tot_mul_r. apply tot_ext. intros; ring.
      + intros j _. rewrite tot_div, !tot_mul_l. unfold Qcdiv. ring. }
  rewrite E.
  assert (NI : (0 <= / NN)%Qc) by (apply Qclt_le_weak, inv_pos; exact HN).
  assert (P1 : (0 <= tot I (fun i => tot U (fun k => u k * Yd k i) * tot U (fun k => u k * Yd k i)) / NN)%Qc) by (apply mul_nonneg; [apply tot_nonneg; intros; apply sq_nonneg|exact NI]).
  assert (P2 : (0 <= tot U (fun k => u k * u k / rin k))%Qc).
  { apply tot_nonneg. intros k Hk. apply mul_nonneg; [apply sq_nonneg|]. apply Qclt_le_weak, inv_pos, rinp; exact Hk. }
  revert P1 P2. generalize (tot I (fun i => tot U (fun k => u k * Yd k i) * tot U (fun k => u k * Yd k i)) / NN)%Qc (tot U (fun k => u k * u k / rin k))%Qc (tot I (fun i => xp i * xp i) / NN)%Qc.
  intros p q r P1 P2. qlra.
Qed.
Lemma trans_ok p : (forall i, 0 <= i < n -> p (ix ms i) = i) -> transform U ms b s gg (fun e f => root n v l (p e) (p f)).
Proof.
  intros Hp. split; [|split].
  - intros e f _ _. apply W_sym.
  - intros c. rewrite rtot_ix. fold n. rewrite (rtot_ext _ _ (fun i => c (ix ms i) * rtot I (fun j => root n v l i j * c (ix ms j)))%R).
    + apply W_psd.
    + intros i Hi. apply in_zrange in Hi. rewrite Hp by exact Hi. f_equal. rewrite rtot_ix. apply rtot_ext. intros j Hj. apply in_zrange in Hj. rewrite Hp by exact Hj. reflexivity.
  - intros e f He Hf. apply In_ix in He as (i & Hi & <-). apply In_ix in Hf as (j & Hj & <-). fold n in Hi, Hj. rewrite !Hp by assumption.
    assert (Eu : runit (ix ms i) (ix ms j) = runit i j).
    { unfold runit. destruct (Z.eqb_spec i j) as [-> |N]; [rewrite Z.eqb_refl; reflexivity|]. destruct (Z.eqb_spec (ix ms i) (ix ms j)) as [E|_]; [|reflexivity].
      exfalso. apply N. exact (ix_inj ms i j NDM Hi Hj E). }
    rewrite Eu. rewrite <- (W_prec n U Yd rin NN HN rinp P PL PR l v Ort Dec i j) by (apply in_zrange; assumption).
    rewrite rtot_ix. apply rtot_ext. intros a Ha. apply in_zrange in Ha. rewrite Hp by exact Ha. rewrite rtot_ix. apply rtot_ext. intros c Hc. pose proof Hc as Hc'. apply in_zrange in Hc. rewrite Hp by exact Hc.
    f_equal. f_equal. unfold precision, pinv. fold n.
    assert (Eq : unit_ (ix ms c) (ix ms j) = unit_ c j).
    { unfold unit_. destruct (Z.eqb_spec c j) as [-> |N]; [rewrite Z.eqb_refl; reflexivity|]. destruct (Z.eqb_spec (ix ms c) (ix ms j)) as [E|_]; [|reflexivity].
      exfalso. apply N. exact (ix_inj ms c j NDM Hc Hj E). }
    rewrite Eq. rewrite (tot_ext U (fun k => Yd k c * rin k * Yd k j)%Qc (fun k => dev ms (b k) (ix ms c) * dev ms (b k) (ix ms j) * gg k / (s k * s k))%Qc).
    + field. intros E. pose proof HN as H. rewrite E in H. discriminate H.
    + intros k _. unfold Yd, P_EnsiCell.rin, Qcdiv. ring.
Qed.
(** the members produced *)
Section Out.
Variable a : Z -> R.
Hypothesis Ha : forall e, 0 <= e < n -> a (ix ms e) = mem n U Yd rin P l v xp (avg ms x) d e.
Lemma xp_sum : tot I xp = 0%Qc. Proof. rewrite <- (tot_dev ms x msne). rewrite (tot_ix ms). reflexivity. Qed.
Lemma n_nz : IZR n <> 0%R. Proof. apply not_0_IZR. lia. Qed.
Lemma a_mean : ravg ms a = qr mval.
Proof.
  unfold ravg. fold n. rewrite rtot_ix. fold n.
  rewrite (rtot_ext I _ (fun e => (qr (avg ms x) + qr (tot I (fun k => xp k * wvec n U Yd rin P d k)%Qc)) + rtot I (fun k => qr (xp k) * root n v l k e))%R).
  2:{ intros e He. apply in_zrange in He. rewrite Ha by exact He. apply mem_split. }
  rewrite rtot_add, rtot_const, zlen_zrange. replace (Z.max 0 (n - 0)) with n by lia.
  rewrite (pert_sum n U Yd rin NN HN rinp (fun k _ => Y_centred k) P PL PR l v Ort Dec xp xp_sum).
  unfold mval. rewrite qr_add. field. exact n_nz.
Qed.
Lemma a_dev e : 0 <= e < n -> (a (ix ms e) - ravg ms a = rtot I (fun k => qr (xp k) * root n v l k e))%R.
Proof. intros He. rewrite a_mean, Ha by exact He. rewrite mem_split. unfold mval. rewrite qr_add. ring. Qed.
Lemma a_var : rvar ms a = qr vval.
Proof.
  unfold rvar. rewrite rtot_ix. fold n.
  rewrite (rtot_ext I _ (fun e => rtot I (fun k => qr (xp k) * root n v l k e) * rtot I (fun k => qr (xp k) * root n v l k e))%R).
  2:{ intros e He. apply in_zrange in He. rewrite a_dev by exact He. reflexivity. }
  rewrite (pert_sq n U Yd rin NN HN rinp P PR l v Ort Dec xp). unfold vval. rewrite qr_z. field. apply not_0_IZR. lia.
Qed.
Lemma a_member p e : (forall i, 0 <= i < n -> p (ix ms i) = i) -> In e ms -> (a e = qr mval + rtot ms (fun f => qr (dev ms x f) * root n v l (p f) (p e)))%R.
Proof.
  intros Hp He. apply In_ix in He as (i & Hi & <-). fold n in Hi. rewrite Hp by exact Hi. pose proof (a_dev i Hi) as E. rewrite a_mean in E.
  rewrite rtot_ix. fold n. rewrite (rtot_ext I (fun i0 => qr (dev ms x (ix ms i0)) * root n v l (p (ix ms i0)) i)%R (fun k => qr (xp k) * root n v l k i)%R).
  - rewrite <- E. ring.
  - intros k Hk. apply in_zrange in Hk. rewrite Hp by exact Hk. reflexivity.
Qed.
End Out.
End Spec.
