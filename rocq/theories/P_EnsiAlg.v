(** Linear algebra behind the ensemble transform. *)
From Coq Require Import Lra.
From Verif Require Import Base QcTac ListLib RBase P_RBase M_Geo S_Geo M_OI S_OI P_OISum M_Ensi S_EnsMulti S_Ensi P_RSum.
Local Open Scope Z_scope.

Lemma sq_nonneg (a : Qc) : (0 <= a * a)%Qc.
Proof.
  destruct (Qclt_le_dec a 0) as [H|H].
  - replace (a * a)%Qc with ((- a) * (- a))%Qc by ring. rewrite <- (Qcmult_0_l (- a)). apply Qcmult_le_compat_r; qlra.
  - rewrite <- (Qcmult_0_l a). apply Qcmult_le_compat_r; assumption.
Qed.
Lemma sq_zero (a : Qc) : (a * a = 0)%Qc -> a = 0%Qc.
Proof. intros H. destruct (Qcmult_integral _ _ H); assumption. Qed.
Lemma mul_nonneg (a b : Qc) : (0 <= a -> 0 <= b -> 0 <= a * b)%Qc.
Proof. intros Ha Hb. rewrite <- (Qcmult_0_l b). apply Qcmult_le_compat_r; assumption. Qed.
Lemma inv_pos (a : Qc) : (0 < a -> 0 < / a)%Qc.
Proof.
  intros P0. destruct (Qclt_le_dec 0 (/ a)) as [L|L]; [exact L|]. exfalso.
  assert (Nz : a <> 0%Qc) by (intros Z0; rewrite Z0 in P0; discriminate P0). pose proof (Qcmult_inv_r _ Nz) as E1. revert L E1. generalize (/ a)%Qc. intros q L E1.
  pose proof (mul_nonneg a (- q)%Qc (Qclt_le_weak _ _ P0) ltac:(qlra)) as Q.
  assert (E2 : (a * - q)%Qc = (- (1))%Qc) by (rewrite <- E1; ring). rewrite E2 in Q. revert Q. vm_compute. intros Q; apply Q; reflexivity.
Qed.
Lemma tot_zero_each U f : tot U f = 0%Qc -> (forall i, In i U -> (0 <= f i)%Qc) -> forall i, In i U -> f i = 0%Qc.
Proof.
  induction U as [|k U IH]; intros H P i Hi; [destruct Hi|]. rewrite tot_cons in H.
  pose proof (P k (or_introl eq_refl)) as P1. pose proof (tot_nonneg U f (fun j Hj => P j (or_intror Hj))) as P2.
  assert (Z1 : f k = 0%Qc) by (apply Qcle_antisym; [|exact P1]; rewrite <- H; rewrite <- (Qcplus_0_r (f k)) at 1; apply Qcplus_le_compat; [apply Qcle_refl|exact P2]).
  destruct Hi as [<- |Hi]; [exact Z1|]. apply IH; auto. { rewrite Z1 in H. rewrite Qcplus_0_l in H. exact H. } intros; apply P; right; assumption.
Qed.
Lemma tot_div U f c : tot U (fun k => f k / c)%Qc = (tot U f / c)%Qc.
Proof. apply tot_mul_r. Qed.

Section Alg.
Variables (n : Z) (U : list Z) (Y : Z -> Z -> Qc) (rinv : Z -> Qc) (N : Qc).
Notation I := (zrange 0 n).
Hypothesis NDU : NoDup U.
Hypothesis HN : (0 < N)%Qc.
Hypothesis HR : forall k, In k U -> (0 < rinv k)%Qc.
Hypothesis HY : forall k, In k U -> tot I (Y k) = 0%Qc.
Definition pinv (i j : Z) : Qc := (tot U (fun k => Y k i * rinv k * Y k j) + N * unit_ i j)%Qc.

Lemma unit_sym i j : unit_ i j = unit_ j i.
Proof. unfold unit_. rewrite Z.eqb_sym. reflexivity. Qed.
Lemma pinv_sym i j : pinv i j = pinv j i.
Proof. unfold pinv. rewrite unit_sym. f_equal. apply tot_ext. intros. ring. Qed.
Lemma N_nz : N <> 0%Qc.
Proof. intros E. rewrite E in HN. discriminate HN. Qed.
Lemma pinv_mul x i : In i I -> tot I (fun j => pinv i j * x j)%Qc = (tot U (fun k => Y k i * (rinv k * tot I (fun j => Y k j * x j))) + N * x i)%Qc.
Proof.
  intros Hi. unfold pinv. rewrite (tot_ext _ _ (fun j => tot U (fun k => Y k i * rinv k * Y k j) * x j + (N * x j) * unit_ j i)%Qc).
  2:{ intros. rewrite (unit_sym i). ring. }
  rewrite tot_add, (tot_delta I (fun j => N * x j)%Qc i (NoDup_zrange _ _) Hi). f_equal.
  transitivity (tot I (fun j => tot U (fun k => Y k i * rinv k * (Y k j * x j)))%Qc).
  - apply tot_ext. intros j _. rewrite <- tot_mul_r. apply tot_ext. intros; ring.
  - rewrite tot_swap. apply tot_ext. intros k _. rewrite tot_mul_l. ring.
Qed.
Lemma pinv_form x : tot I (fun i => x i * tot I (fun j => pinv i j * x j))%Qc =
  (tot U (fun k => rinv k * (tot I (fun j => Y k j * x j) * tot I (fun j => Y k j * x j))) + N * tot I (fun i => x i * x i))%Qc.
Proof.
  rewrite (tot_ext _ _ (fun i => tot U (fun k => x i * (Y k i * (rinv k * tot I (fun j => Y k j * x j)))) + N * (x i * x i))%Qc).
  2:{ intros i Hi. rewrite pinv_mul by exact Hi. rewrite tot_mul_l. ring. }
  rewrite tot_add, tot_mul_l. f_equal. rewrite tot_swap. apply tot_ext. intros k Hk.
  rewrite (tot_ext _ _ (fun i => (Y k i * x i) * (rinv k * tot I (fun j => Y k j * x j)))%Qc) by (intros; ring). rewrite tot_mul_r. ring.
Qed.
Lemma pinv_psd x : (0 <= tot I (fun i => x i * tot I (fun j => pinv i j * x j)))%Qc.
Proof.
  rewrite pinv_form.
  assert (0 <= tot U (fun k => rinv k * (tot I (fun j => Y k j * x j) * tot I (fun j => Y k j * x j))))%Qc.
  { apply tot_nonneg. intros k Hk. apply mul_nonneg; [apply Qclt_le_weak; auto|apply sq_nonneg]. }
  assert (0 <= N * tot I (fun i => x i * x i))%Qc by (apply mul_nonneg; [apply Qclt_le_weak; exact HN|apply tot_nonneg; intros; apply sq_nonneg]).
  qlra.
Qed.
Lemma pinv_regular : ~ singular n pinv.
Proof.
  intros (x & (i & Hi & Nz) & H).
  assert (E : tot I (fun i => x i * tot I (fun j => pinv i j * x j))%Qc = 0%Qc).
  { rewrite (tot_ext _ _ (fun i => tot I (fun j => x i * pinv i j * x j))%Qc) by (intros; rewrite <- tot_mul_l; apply tot_ext; intros; ring).
    rewrite tot_swap. apply tot_zero. intros j Hj. rewrite tot_mul_r. apply in_zrange in Hj. rewrite H by exact Hj. ring. }
  rewrite pinv_form in E.
  assert (P1 : (0 <= tot U (fun k => rinv k * (tot I (fun j => Y k j * x j) * tot I (fun j => Y k j * x j))))%Qc).
  { apply tot_nonneg. intros k Hk. apply mul_nonneg; [apply Qclt_le_weak; auto|apply sq_nonneg]. }
  assert (P2 : (0 <= tot I (fun i => x i * x i))%Qc) by (apply tot_nonneg; intros; apply sq_nonneg).
  assert (P3 : (0 <= N * tot I (fun i => x i * x i))%Qc) by (apply mul_nonneg; [apply Qclt_le_weak; exact HN|exact P2]).
  assert (Z0 : (N * tot I (fun i => x i * x i))%Qc = 0%Qc) by (apply Qcle_antisym; qlra).
  apply Qcmult_integral in Z0 as [Z0|Z0]; [exact (N_nz Z0)|].
  apply Nz. apply sq_zero. apply (tot_zero_each I (fun i => x i * x i)%Qc Z0); [intros; apply sq_nonneg|apply in_zrange; exact Hi].
Qed.

Section Inv.
Variable P : Z -> Z -> Qc.
Hypothesis PL : forall i j, In i I -> In j I -> tot I (fun k => P i k * pinv k j)%Qc = unit_ i j.
Hypothesis PR : forall i j, In i I -> In j I -> tot I (fun k => pinv i k * P k j)%Qc = unit_ i j.

Lemma P_sym i j : In i I -> In j I -> P i j = P j i.
Proof.
  intros Hi Hj. transitivity (tot I (fun k => tot I (fun l => P i k * pinv k l * P j l)))%Qc.
  - symmetry. rewrite (tot_ext _ _ (fun k => P i k * unit_ k j)%Qc).
    + apply tot_delta; [apply NoDup_zrange|exact Hj].
    + intros k Hk. rewrite unit_sym, <- (PL j k Hj Hk). rewrite <- tot_mul_l. apply tot_ext. intros l _. rewrite (pinv_sym k l). ring.
  - rewrite tot_swap. rewrite (tot_ext _ _ (fun l => P j l * unit_ l i)%Qc).
    + apply tot_delta; [apply NoDup_zrange|exact Hi].
    + intros l Hl. rewrite unit_sym, <- (PL i l Hi Hl). rewrite <- tot_mul_l. apply tot_ext. intros. ring.
Qed.
(** solving with the inverse *)
Definition psol (b : Z -> Qc) (i : Z) : Qc := tot I (fun j => P i j * b j)%Qc.
Lemma psol_ok b i : In i I -> tot I (fun j => pinv i j * psol b j)%Qc = b i.
Proof.
  intros Hi. unfold psol. rewrite (tot_ext _ _ (fun j => tot I (fun l => pinv i j * P j l * b l))%Qc) by (intros; rewrite <- tot_mul_l; apply tot_ext; intros; ring).
  rewrite tot_swap. rewrite (tot_ext _ _ (fun l => b l * unit_ l i)%Qc). { apply tot_delta; [apply NoDup_zrange|exact Hi]. }
  intros l Hl. rewrite tot_mul_r, PR by assumption. rewrite unit_sym. ring.
Qed.
(** row sums *)
Lemma P_ones i : In i I -> (N * tot I (fun j => P i j))%Qc = 1%Qc.
Proof.
  intros Hi. rewrite <- tot_mul_l.
  rewrite (tot_ext _ _ (fun j => tot I (fun k => P i j * pinv j k))%Qc).
  - rewrite tot_swap. rewrite (tot_ext _ _ (fun k => 1 * unit_ k i)%Qc). { apply (tot_delta I (fun _ => 1%Qc)); [apply NoDup_zrange|exact Hi]. }
    intros k Hk. rewrite PL by assumption. rewrite unit_sym. ring.
  - intros j Hj. rewrite tot_mul_l. rewrite (tot_ext _ (fun k => pinv j k) (fun k => pinv j k * 1)%Qc) by (intros; ring). rewrite pinv_mul by exact Hj.
    rewrite tot_zero; [ring|]. intros k Hk. rewrite (tot_ext _ _ (Y k)) by (intros; ring). rewrite HY by exact Hk. ring.
Qed.
(** the weights of the mean, and the gain they come from *)
Section Mean.
Variable d : Z -> Qc.
Definition wvec : Z -> Qc := psol (fun i => tot U (fun k => Y k i * rinv k * d k)%Qc).
Definition vvec (k : Z) : Qc := (rinv k * (d k - tot I (fun j => Y k j * wvec j)))%Qc.
Lemma w_v i : In i I -> (N * wvec i)%Qc = tot U (fun k => vvec k * Y k i)%Qc.
Proof.
  intros Hi. pose proof (psol_ok (fun i => tot U (fun k => Y k i * rinv k * d k)%Qc) i Hi) as E. fold wvec in E. rewrite pinv_mul in E by exact Hi.
  unfold vvec. rewrite (tot_ext _ (fun k => rinv k * (d k - tot I (fun j => Y k j * wvec j)) * Y k i)%Qc (fun k => Y k i * rinv k * d k - Y k i * (rinv k * tot I (fun j => Y k j * wvec j)))%Qc) by (intros; ring).
  rewrite tot_sub, <- E. ring.
Qed.
Lemma v_solves j : In j U -> (tot U (fun k => vvec k * (tot I (fun i => Y k i * Y j i) / N)) + vvec j / rinv j = d j)%Qc.
Proof.
  intros Hj.
  assert (E : tot U (fun k => vvec k * (tot I (fun i => Y k i * Y j i) / N))%Qc = tot I (fun i => Y j i * wvec i)%Qc).
  { rewrite (tot_ext U _ (fun k => tot I (fun i => (vvec k * Y k i) * (Y j i / N)))%Qc).
    2:{ intros k _. rewrite <- tot_div, <- tot_mul_l. apply tot_ext. intros. unfold Qcdiv. ring. }
    rewrite tot_swap. apply tot_ext. intros i Hi. rewrite tot_mul_r, <- w_v by exact Hi. field. exact N_nz. }
  rewrite E. unfold vvec. pose proof (HR j Hj). assert (rinv j <> 0%Qc) by (intros Z0; rewrite Z0 in H; discriminate H). field. assumption.
Qed.
Lemma v_mean (x : Z -> Qc) : tot I (fun i => x i * wvec i)%Qc = tot U (fun k => vvec k * (tot I (fun i => x i * Y k i) / N))%Qc.
Proof.
  rewrite (tot_ext U _ (fun k => tot I (fun i => (vvec k * Y k i) * (x i / N)))%Qc).
  2:{ intros k _. rewrite <- tot_div, <- tot_mul_l. apply tot_ext. intros. unfold Qcdiv. ring. }
  rewrite tot_swap. apply tot_ext. intros i Hi. rewrite tot_mul_r, <- w_v by exact Hi. field. exact N_nz.
Qed.
End Mean.
(** the gain for the spread *)
Section Spread.
Variable x : Z -> Qc.
Definition zvec : Z -> Qc := psol x.
Definition tvec (k : Z) : Qc := (rinv k * tot I (fun j => Y k j * zvec j))%Qc.
Lemma z_t i : In i I -> (N * zvec i)%Qc = (x i - tot U (fun k => tvec k * Y k i))%Qc.
Proof.
  intros Hi. pose proof (psol_ok x i Hi) as E. fold zvec in E. rewrite pinv_mul in E by exact Hi. rewrite <- E. unfold tvec.
  rewrite (tot_ext U (fun k => rinv k * tot I (fun j => Y k j * zvec j) * Y k i)%Qc (fun k => Y k i * (rinv k * tot I (fun j => Y k j * zvec j)))%Qc) by (intros; ring). ring.
Qed.
Lemma t_sum j : tot U (fun k => tvec k * (tot I (fun i => Y k i * Y j i) / N))%Qc = tot I (fun i => Y j i * (x i / N - zvec i))%Qc.
Proof.
  rewrite (tot_ext U _ (fun k => tot I (fun i => (tvec k * Y k i) * (Y j i / N)))%Qc).
  2:{ intros k _. rewrite <- tot_div, <- tot_mul_l. apply tot_ext. intros. unfold Qcdiv. ring. }
  rewrite tot_swap. apply tot_ext. intros i Hi. rewrite tot_mul_r.
  replace (tot U (fun k => tvec k * Y k i))%Qc with (x i - N * zvec i)%Qc by (rewrite z_t by exact Hi; ring). field. exact N_nz.
Qed.
Lemma t_solves j : In j U -> (tot U (fun k => tvec k * (tot I (fun i => Y k i * Y j i) / N)) + tvec j / rinv j = tot I (fun i => x i * Y j i) / N)%Qc.
Proof.
  intros Hj. rewrite t_sum. rewrite (tot_ext _ _ (fun i => x i * Y j i / N - Y j i * zvec i)%Qc) by (intros; field; exact N_nz). rewrite tot_sub, tot_div.
  unfold tvec. pose proof (HR j Hj). assert (rinv j <> 0%Qc) by (intros Z0; rewrite Z0 in H; discriminate H). field. repeat split; first [assumption|exact N_nz].
Qed.
Lemma t_spread : tot I (fun i => x i * zvec i)%Qc = (tot I (fun i => x i * x i) / N - tot U (fun k => tvec k * (tot I (fun i => x i * Y k i) / N)))%Qc.
Proof.
  assert (E : tot U (fun k => tvec k * (tot I (fun i => x i * Y k i) / N))%Qc = tot I (fun i => x i * (x i / N - zvec i))%Qc).
  { rewrite (tot_ext U _ (fun k => tot I (fun i => (tvec k * Y k i) * (x i / N)))%Qc).
    2:{ intros k _. rewrite <- tot_div, <- tot_mul_l. apply tot_ext. intros. unfold Qcdiv. ring. }
    rewrite tot_swap. apply tot_ext. intros i Hi. rewrite tot_mul_r.
    replace (tot U (fun k => tvec k * Y k i))%Qc with (x i - N * zvec i)%Qc by (rewrite z_t by exact Hi; ring). field. exact N_nz. }
  rewrite E, <- tot_div, <- tot_sub. apply tot_ext. intros. field. exact N_nz.
Qed.
(** the analysis variance is non-negative *)
Lemma t_nonneg : (0 <= tot I (fun i => x i * zvec i))%Qc.
Proof.
  pose proof (pinv_psd zvec) as H. rewrite (tot_ext _ _ (fun i => x i * zvec i)%Qc) in H; [exact H|].
  intros i Hi. cbn beta. unfold zvec at 2. rewrite psol_ok by exact Hi. ring.
Qed.
End Spread.
(** the matrix given to the eigenvalue solver *)
Definition amat (i j : Z) : Qc := (N * P i j)%Qc.
Lemma amat_sym : symmetric n amat.
Proof. intros i j Hi Hj. unfold amat. rewrite P_sym by (apply in_zrange; assumption). reflexivity. Qed.
Lemma amat_psd (c : Z -> R) : (0 <= rtot I (fun i => c i * rtot I (fun j => qr (amat i j) * c j)))%R.
Proof.
  (* y = P c, in reals *)
  set (y := fun i => rtot I (fun j => qr (P i j) * c j)%R).
  assert (Hy : forall i, In i I -> rtot I (fun j => qr (pinv i j) * y j)%R = c i).
  { intros i Hi. unfold y. rewrite (rtot_ext _ _ (fun j => rtot I (fun l => qr (pinv i j) * qr (P j l) * c l))%R) by (intros; rewrite <- rtot_mul_l; apply rtot_ext; intros; ring).
    rewrite rtot_swap. rewrite (rtot_ext _ _ (fun l => c l * runit l i)%R). { apply rtot_delta; [apply NoDup_zrange|exact Hi]. }
    intros l Hl. rewrite rtot_mul_r. rewrite (rtot_ext _ _ (fun k => qr (pinv i k * P k l))) by (intros; rewrite qr_mul; reflexivity).
    rewrite <- qr_tot, PR by assumption. rewrite qr_unit, runit_sym. ring. }
  assert (Q : (0 <= rtot I (fun i => y i * rtot I (fun j => qr (pinv i j) * y j)))%R).
  { assert (E : forall i, In i I -> rtot I (fun j => qr (pinv i j) * y j)%R = (rtot U (fun k => qr (Y k i) * (qr (rinv k) * rtot I (fun j => qr (Y k j) * y j))) + qr N * y i)%R).
    { intros i Hi. unfold pinv.
      rewrite (rtot_ext _ _ (fun j => rtot U (fun k => qr (Y k i) * qr (rinv k) * (qr (Y k j) * y j)) + (qr N * y j) * runit j i)%R).
      2:{ intros j _. rewrite qr_add, qr_mul, qr_unit, qr_tot, Rmult_plus_distr_r. rewrite (runit_sym i). f_equal; [|ring].
          rewrite <- rtot_mul_r. apply rtot_ext. intros k _. rewrite !qr_mul. ring. }
      rewrite rtot_add, (rtot_delta I (fun j => qr N * y j)%R i (NoDup_zrange _ _) Hi). f_equal. rewrite rtot_swap. apply rtot_ext. intros k _.
      rewrite rtot_mul_l. ring. }
    rewrite (rtot_ext _ _ (fun i => rtot U (fun k => (qr (Y k i) * y i) * (qr (rinv k) * rtot I (fun j => qr (Y k j) * y j))) + qr N * (y i * y i))%R).
    2:{ intros i Hi. rewrite E by exact Hi. rewrite Rmult_plus_distr_l. f_equal; [|ring]. rewrite <- rtot_mul_l. apply rtot_ext. intros; ring. }
    rewrite rtot_add, rtot_mul_l, rtot_swap. apply Rplus_le_le_0_compat.
    - apply rtot_nonneg. intros k Hk. rewrite rtot_mul_r. pose proof (qr_lt 0 (rinv k) (HR k Hk)) as H. rewrite qr_0 in H. set (s := rtot I (fun j => qr (Y k j) * y j)%R).
      replace (s * (qr (rinv k) * s))%R with (qr (rinv k) * (s * s))%R by ring. apply Rmult_le_pos; [lra|nra].
    - pose proof (qr_lt 0 N HN) as H. rewrite qr_0 in H. apply Rmult_le_pos; [lra|]. apply rtot_nonneg. intros; nra. }
  pose proof (qr_lt 0 N HN) as H. rewrite qr_0 in H.
  replace (rtot I (fun i => c i * rtot I (fun j => qr (amat i j) * c j)))%R with (qr N * rtot I (fun i => y i * rtot I (fun j => qr (pinv i j) * y j)))%R.
  { apply Rmult_le_pos; [lra|exact Q]. }
  rewrite <- rtot_mul_l. apply rtot_ext. intros i Hi. rewrite Hy by exact Hi. unfold y. rewrite <- !rtot_mul_l. rewrite <- rtot_mul_r.
  rewrite <- rtot_mul_l. apply rtot_ext. intros j _. unfold amat. rewrite qr_mul. ring.
Qed.

(** *** the transform *)
Section Trans.
Variables (l : Z -> R) (v : Z -> Z -> R).
Hypothesis Ort : forall i j, In i I -> In j I -> rtot I (fun k => v k i * v k j)%R = runit i j.
Hypothesis Dec : forall i j, In i I -> In j I -> qr (amat i j) = rtot I (fun k => v i k * l k * v j k)%R.
Notation W := (root n v l).
Lemma W_sym i j : W i j = W j i. Proof. apply root_sym. Qed.
Lemma W_psd c : (0 <= rtot I (fun i => c i * rtot I (fun j => W i j * c j)))%R. Proof. apply root_psd. Qed.
Lemma W_sq i m : In i I -> In m I -> rtot I (fun j => W i j * W j m)%R = qr (amat i m).
Proof. apply (root_sq n (fun i j => qr (amat i j)) v l Ort Dec amat_psd). Qed.
Lemma W_ones i : In i I -> rtot I (fun j => W i j) = 1%R.
Proof.
  intros Hi. rewrite (rtot_ext _ (fun j => W i j) (fun j => W i j * 1)%R) by (intros; ring).
  apply (root_fixed n (fun i j => qr (amat i j)) v l Ort Dec amat_psd (fun _ => 1%R)); [|exact Hi].
  intros j Hj. rewrite (rtot_ext _ _ (fun k => qr (amat j k))) by (intros; ring). rewrite <- qr_tot. unfold amat. rewrite tot_mul_l, P_ones by exact Hj. exact qr_1.
Qed.
Lemma W_prec i j : In i I -> In j I -> rtot I (fun a => rtot I (fun b => W i a * W a b * qr (pinv b j / N)))%R = runit i j.
Proof.
  intros Hi Hj. rewrite rtot_swap. rewrite (rtot_ext _ _ (fun b => qr (P i b * pinv b j))).
  - rewrite <- qr_tot, PL by assumption. apply qr_unit.
  - intros b Hb. rewrite rtot_mul_r, W_sq by assumption. rewrite <- qr_mul. f_equal. unfold amat. field. exact N_nz.
Qed.
Section Members.
Variables (x : Z -> Qc) (xb : Qc) (d : Z -> Qc).
Hypothesis HX : tot I x = 0%Qc.
(** the analysis of member [e] *)
Definition mem (e : Z) : R := (qr xb + rtot I (fun k => qr (x k) * (W k e + qr (wvec d k))))%R.
Lemma mem_split e : mem e = (qr xb + qr (tot I (fun k => x k * wvec d k)%Qc) + rtot I (fun k => qr (x k) * W k e))%R.
Proof.
  unfold mem. rewrite qr_tot. rewrite (rtot_ext I (fun k => qr (x k * wvec d k)%Qc) (fun k => qr (x k) * qr (wvec d k))%R) by (intros; apply qr_mul).
  rewrite (rtot_ext I (fun k => qr (x k) * (W k e + qr (wvec d k)))%R (fun k => qr (x k) * W k e + qr (x k) * qr (wvec d k))%R) by (intros; ring).
  rewrite rtot_add. ring.
Qed.
Lemma pert_sum : rtot I (fun e => rtot I (fun k => qr (x k) * W k e))%R = 0%R.
Proof.
  rewrite rtot_swap. rewrite (rtot_ext _ _ (fun k => qr (x k))). { rewrite <- qr_tot, HX. exact qr_0. }
  intros k Hk. rewrite rtot_mul_l, W_ones by exact Hk. ring.
Qed.
Lemma pert_sq : rtot I (fun e => rtot I (fun k => qr (x k) * W k e) * rtot I (fun k => qr (x k) * W k e))%R = (qr N * qr (tot I (fun i => x i * zvec x i)%Qc))%R.
Proof.
  transitivity (rtot I (fun k => rtot I (fun k' => qr (x k) * qr (x k') * rtot I (fun e => W k e * W e k'))))%R.
  - rewrite (rtot_ext _ _ (fun e => rtot I (fun k => rtot I (fun k' => qr (x k) * qr (x k') * (W k e * W e k'))))%R).
    + rewrite rtot_swap. apply rtot_ext. intros k _. rewrite rtot_swap. apply rtot_ext. intros k' _. rewrite rtot_mul_l. reflexivity.
    + intros e _. rewrite <- rtot_mul_r. apply rtot_ext. intros k _. rewrite <- rtot_mul_l. apply rtot_ext. intros k' _. rewrite (W_sym e k'). ring.
  - rewrite <- qr_mul, <- tot_mul_l, qr_tot. apply rtot_ext. intros k Hk. unfold zvec, psol. rewrite !qr_mul, qr_tot. rewrite <- !rtot_mul_l.
    apply rtot_ext. intros k' Hk'. rewrite W_sq by assumption. unfold amat. rewrite !qr_mul. ring.
Qed.
End Members.
End Trans.
End Inv.
(** *** uniqueness of the gain *)
Lemma gain_unique (v v' : Z -> Qc) (d : Z -> Qc) :
  (forall j, In j U -> (tot U (fun k => v k * (tot I (fun i => Y k i * Y j i) / N)) + v j / rinv j = d j)%Qc) ->
  (forall j, In j U -> (tot U (fun k => v' k * (tot I (fun i => Y k i * Y j i) / N)) + v' j / rinv j = d j)%Qc) ->
  forall j, In j U -> v' j = v j.
Proof.
  intros H H'. set (u := fun k => (v' k - v k)%Qc).
  assert (E : forall j, In j U -> (tot U (fun k => u k * (tot I (fun i => Y k i * Y j i) / N)) + u j / rinv j = 0)%Qc).
  { intros j Hj. unfold u. rewrite (tot_ext _ _ (fun k => v' k * (tot I (fun i => Y k i * Y j i) / N) - v k * (tot I (fun i => Y k i * Y j i) / N))%Qc) by (intros; ring).
    rewrite tot_sub. specialize (H j Hj). specialize (H' j Hj).
    transitivity ((tot U (fun k => v' k * (tot I (fun i => Y k i * Y j i) / N)) + v' j / rinv j) - (tot U (fun k => v k * (tot I (fun i => Y k i * Y j i) / N)) + v j / rinv j))%Qc.
    - unfold Qcdiv. ring. - rewrite H, H'. ring. }
  assert (RI : forall k, In k U -> (0 < / rinv k)%Qc) by (intros k Hk; apply inv_pos; auto).
  assert (Z0 : (tot I (fun i => tot U (fun k => u k * Y k i) * tot U (fun k => u k * Y k i)) * / N + tot U (fun k => u k * u k * / rinv k))%Qc = 0%Qc).
  { transitivity (tot U (fun j => u j * (tot U (fun k => u k * (tot I (fun i => Y k i * Y j i) / N)) + u j / rinv j)))%Qc.
    2:{ apply tot_zero. intros j Hj. rewrite E by exact Hj. ring. }
    rewrite (tot_ext U (fun j => u j * (tot U (fun k => u k * (tot I (fun i => Y k i * Y j i) / N)) + u j / rinv j))%Qc
               (fun j => tot I (fun i => tot U (fun k => u k * Y k i) * (u j * Y j i)) * / N + u j * u j * / rinv j)%Qc).
    - rewrite tot_add, tot_mul_r. f_equal. f_equal. rewrite tot_swap. apply tot_ext. intros i _. rewrite <- tot_mul_l. reflexivity.
    - intros j _. unfold Qcdiv. rewrite Qcmult_plus_distr_r. f_equal; [|ring]. rewrite <- tot_mul_l.
      rewrite <- tot_mul_r.
      rewrite (tot_ext U _ (fun k => tot I (fun i => u j * (u k * (Y k i * Y j i) * / N)))%Qc).
      2:{ intros k _. rewrite tot_mul_l. f_equal. rewrite tot_mul_r, tot_mul_l. ring. }
      rewrite tot_swap. apply tot_ext. intros i _. rewrite <- tot_mul_r, <- tot_mul_r. apply tot_ext. intros. ring. }
  assert (NI : (0 <= / N)%Qc) by (apply Qclt_le_weak, inv_pos; exact HN).
  assert (P1 : (0 <= tot I (fun i => tot U (fun k => u k * Y k i) * tot U (fun k => u k * Y k i)) * / N)%Qc) by (apply mul_nonneg; [apply tot_nonneg; intros; apply sq_nonneg|exact NI]).
  assert (P2 : forall k, In k U -> (0 <= u k * u k * / rinv k)%Qc) by (intros k Hk; apply mul_nonneg; [apply sq_nonneg|apply Qclt_le_weak; auto]).
  pose proof (tot_nonneg U _ P2) as P3.
  assert (Z1 : tot U (fun k => u k * u k * / rinv k)%Qc = 0%Qc) by (apply Qcle_antisym; qlra).
  intros j Hj. pose proof (tot_zero_each U _ Z1 P2 j Hj) as Z2. cbn beta in Z2. apply Qcmult_integral in Z2 as [Z2|Z2].
  - apply sq_zero in Z2. unfold u in Z2. replace (v' j) with (v' j - v j + v j)%Qc by ring. rewrite Z2. ring.
  - exfalso. pose proof (RI j Hj) as P4. rewrite Z2 in P4. discriminate P4.
Qed.
End Alg.
