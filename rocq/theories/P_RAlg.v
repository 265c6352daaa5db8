(** Linear algebra behind the ensemble transform, for real numbers. *)
From Coq Require Import Lra.
From Verif Require Import Base QcTac ListLib RBase P_RBase M_Geo S_Geo M_OI S_OI P_OISum M_Ensi S_EnsMulti S_Ensi S_EnsDyn M_EnsUtem S_EnsUtem P_RSum.
Local Open Scope Z_scope.

Lemma rtot_div U f c : rtot U (fun k => f k / c)%R = (rtot U f / c)%R.
Proof. apply rtot_mul_r. Qed.

Section Alg.
Variables (n : Z) (U : list Z) (Y : Z -> Z -> R) (rinv : Z -> R).
Notation I := (zrange 0 n).
Hypothesis HR : forall k, In k U -> (0 < rinv k)%R.
Definition rpinv (i j : Z) : R := (rtot U (fun k => Y k i * rinv k * Y k j) + runit i j)%R.

Lemma rpinv_sym i j : rpinv i j = rpinv j i.
Proof. unfold rpinv. rewrite runit_sym. f_equal. apply rtot_ext. intros. ring. Qed.
Lemma rpinv_mul x i : In i I -> rtot I (fun j => rpinv i j * x j)%R = (rtot U (fun k => Y k i * (rinv k * rtot I (fun j => Y k j * x j))) + x i)%R.
Proof.
  intros Hi. unfold rpinv. rewrite (rtot_ext _ _ (fun j => rtot U (fun k => Y k i * rinv k * Y k j) * x j + x j * runit j i)%R).
  2:{ intros. rewrite (runit_sym i). ring. }
  rewrite rtot_add, (rtot_delta I x i (NoDup_zrange _ _) Hi). f_equal.
  transitivity (rtot I (fun j => rtot U (fun k => Y k i * rinv k * (Y k j * x j)))%R).
  - apply rtot_ext. intros j _. rewrite <- rtot_mul_r. apply rtot_ext. intros; ring.
  - rewrite rtot_swap. apply rtot_ext. intros k _. rewrite rtot_mul_l. ring.
Qed.
Lemma rpinv_form x : rtot I (fun i => x i * rtot I (fun j => rpinv i j * x j))%R =
  (rtot U (fun k => rinv k * (rtot I (fun j => Y k j * x j) * rtot I (fun j => Y k j * x j))) + rtot I (fun i => x i * x i))%R.
Proof.
  rewrite (rtot_ext _ _ (fun i => rtot U (fun k => x i * (Y k i * (rinv k * rtot I (fun j => Y k j * x j)))) + x i * x i)%R).
  2:{ intros i Hi. rewrite rpinv_mul by exact Hi. rewrite rtot_mul_l. ring. }
  rewrite rtot_add. f_equal. rewrite rtot_swap. apply rtot_ext. intros k Hk.
  rewrite (rtot_ext _ _ (fun i => (Y k i * x i) * (rinv k * rtot I (fun j => Y k j * x j)))%R) by (intros; ring). rewrite rtot_mul_r. ring.
Qed.
Lemma obs_nonneg x : (0 <= rtot U (fun k => rinv k * (rtot I (fun j => Y k j * x j) * rtot I (fun j => Y k j * x j))))%R.
Proof. apply rtot_nonneg. intros k Hk. pose proof (HR k Hk). apply Rmult_le_pos; [lra|apply Rle_0_sqr]. Qed.
Lemma sq_nonneg x : (0 <= rtot I (fun i => x i * x i))%R.
Proof. apply rtot_nonneg. intros. apply Rle_0_sqr. Qed.
Lemma rpinv_psd x : (0 <= rtot I (fun i => x i * rtot I (fun j => rpinv i j * x j)))%R.
Proof. rewrite rpinv_form. pose proof (obs_nonneg x). pose proof (sq_nonneg x). lra. Qed.
Lemma rpinv_regular : ~ rsingular n rpinv.
Proof.
  intros (x & (i & Hi & Nz) & H).
  assert (E : rtot I (fun i => x i * rtot I (fun j => rpinv i j * x j))%R = 0%R).
  { rewrite (rtot_ext _ _ (fun i => rtot I (fun j => x i * rpinv i j * x j))%R) by (intros; rewrite <- rtot_mul_l; apply rtot_ext; intros; ring).
    rewrite rtot_swap. apply rtot_zero. intros j Hj. rewrite rtot_mul_r. apply in_zrange in Hj. rewrite H by exact Hj. ring. }
  rewrite rpinv_form in E. pose proof (obs_nonneg x). pose proof (sq_nonneg x).
  apply Nz. apply Rsqr_0_uniq. apply (rtot_zero_each I (fun i => x i * x i)%R); [lra|intros; apply Rle_0_sqr|apply in_zrange; exact Hi].
Qed.

Section Inv.
Variable P : Z -> Z -> R.
Hypothesis PL : forall i j, In i I -> In j I -> rtot I (fun k => P i k * rpinv k j)%R = runit i j.
Hypothesis PR : forall i j, In i I -> In j I -> rtot I (fun k => rpinv i k * P k j)%R = runit i j.

Lemma rP_sym i j : In i I -> In j I -> P i j = P j i.
Proof.
  intros Hi Hj. transitivity (rtot I (fun k => rtot I (fun l => P i k * rpinv k l * P j l)))%R.
  - symmetry. rewrite (rtot_ext _ _ (fun k => P i k * runit k j)%R).
    + apply rtot_delta; [apply NoDup_zrange|exact Hj].
    + intros k Hk. rewrite runit_sym, <- (PL j k Hj Hk). rewrite <- rtot_mul_l. apply rtot_ext. intros l _. rewrite (rpinv_sym k l). ring.
  - rewrite rtot_swap. rewrite (rtot_ext _ _ (fun l => P j l * runit l i)%R).
    + apply rtot_delta; [apply NoDup_zrange|exact Hi].
    + intros l Hl. rewrite runit_sym, <- (PL i l Hi Hl). rewrite <- rtot_mul_l. apply rtot_ext. intros. ring.
Qed.
(** solving with the inverse *)
Definition rpsol (b : Z -> R) (i : Z) : R := rtot I (fun j => P i j * b j)%R.
Lemma rpsol_ok b i : In i I -> rtot I (fun j => rpinv i j * rpsol b j)%R = b i.
Proof.
  intros Hi. unfold rpsol. rewrite (rtot_ext _ _ (fun j => rtot I (fun l => rpinv i j * P j l * b l))%R) by (intros; rewrite <- rtot_mul_l; apply rtot_ext; intros; ring).
  rewrite rtot_swap. rewrite (rtot_ext _ _ (fun l => b l * runit l i)%R). { apply rtot_delta; [apply NoDup_zrange|exact Hi]. }
  intros l Hl. rewrite rtot_mul_r, PR by assumption. rewrite runit_sym. ring.
Qed.
(** row sums *)
Lemma rP_ones i : (forall k, In k U -> rtot I (Y k) = 0%R) -> In i I -> rtot I (fun j => P i j)%R = 1%R.
Proof.
  intros HY Hi.
  rewrite (rtot_ext _ _ (fun j => rtot I (fun k => P i j * rpinv j k))%R).
  - rewrite rtot_swap. rewrite (rtot_ext _ _ (fun k => 1 * runit k i)%R). { apply (rtot_delta I (fun _ => 1%R)); [apply NoDup_zrange|exact Hi]. }
    intros k Hk. rewrite PL by assumption. rewrite runit_sym. ring.
  - intros j Hj. rewrite rtot_mul_l. rewrite (rtot_ext _ (fun k => rpinv j k) (fun k => rpinv j k * 1)%R) by (intros; ring). rewrite rpinv_mul by exact Hj.
    rewrite rtot_zero; [ring|]. intros k Hk. rewrite (rtot_ext _ _ (Y k)) by (intros; ring). rewrite HY by exact Hk. ring.
Qed.
(** the weights of the mean, and the gain they come from *)
Section Mean.
Variable d : Z -> R.
Definition rwvec : Z -> R := rpsol (fun i => rtot U (fun k => Y k i * rinv k * d k)%R).
Definition rvvec (k : Z) : R := (rinv k * (d k - rtot I (fun j => Y k j * rwvec j)))%R.
Lemma rw_v i : In i I -> rwvec i = rtot U (fun k => rvvec k * Y k i)%R.
Proof.
  intros Hi. pose proof (rpsol_ok (fun i => rtot U (fun k => Y k i * rinv k * d k)%R) i Hi) as E. fold rwvec in E. rewrite rpinv_mul in E by exact Hi.
  unfold rvvec. rewrite (rtot_ext _ (fun k => rinv k * (d k - rtot I (fun j => Y k j * rwvec j)) * Y k i)%R (fun k => Y k i * rinv k * d k - Y k i * (rinv k * rtot I (fun j => Y k j * rwvec j)))%R) by (intros; ring).
  rewrite rtot_sub, <- E. ring.
Qed.
Lemma rv_solves j : In j U -> (rtot U (fun k => rvvec k * rtot I (fun i => Y k i * Y j i)) + rvvec j / rinv j = d j)%R.
Proof.
  intros Hj.
  assert (E : rtot U (fun k => rvvec k * rtot I (fun i => Y k i * Y j i))%R = rtot I (fun i => Y j i * rwvec i)%R).
  { rewrite (rtot_ext U _ (fun k => rtot I (fun i => (rvvec k * Y k i) * Y j i))%R).
    2:{ intros k _. rewrite <- rtot_mul_l. apply rtot_ext. intros. ring. }
    rewrite rtot_swap. apply rtot_ext. intros i Hi. rewrite rtot_mul_r, <- rw_v by exact Hi. ring. }
  rewrite E. unfold rvvec. pose proof (HR j Hj). field. lra.
Qed.
Lemma rv_mean (x : Z -> R) : rtot I (fun i => x i * rwvec i)%R = rtot U (fun k => rvvec k * rtot I (fun i => x i * Y k i))%R.
Proof.
  rewrite (rtot_ext U _ (fun k => rtot I (fun i => (rvvec k * Y k i) * x i))%R).
  2:{ intros k _. rewrite <- rtot_mul_l. apply rtot_ext. intros. ring. }
  rewrite rtot_swap. apply rtot_ext. intros i Hi. rewrite rtot_mul_r, <- rw_v by exact Hi. ring.
Qed.
End Mean.
(** the gain for the spread *)
Section Spread.
Variable x : Z -> R.
Definition rzvec : Z -> R := rpsol x.
Definition rtvec (k : Z) : R := (rinv k * rtot I (fun j => Y k j * rzvec j))%R.
Lemma rz_t i : In i I -> rzvec i = (x i - rtot U (fun k => rtvec k * Y k i))%R.
Proof.
  intros Hi. pose proof (rpsol_ok x i Hi) as E. fold rzvec in E. rewrite rpinv_mul in E by exact Hi. rewrite <- E. unfold rtvec.
  rewrite (rtot_ext U (fun k => rinv k * rtot I (fun j => Y k j * rzvec j) * Y k i)%R (fun k => Y k i * (rinv k * rtot I (fun j => Y k j * rzvec j)))%R) by (intros; ring). ring.
Qed.
Lemma rt_sum j : rtot U (fun k => rtvec k * rtot I (fun i => Y k i * Y j i))%R = rtot I (fun i => Y j i * (x i - rzvec i))%R.
Proof.
  rewrite (rtot_ext U _ (fun k => rtot I (fun i => (rtvec k * Y k i) * Y j i))%R).
  2:{ intros k _. rewrite <- rtot_mul_l. apply rtot_ext. intros. ring. }
  rewrite rtot_swap. apply rtot_ext. intros i Hi. rewrite rtot_mul_r.
  replace (rtot U (fun k => rtvec k * Y k i))%R with (x i - rzvec i)%R by (rewrite rz_t by exact Hi; ring). ring.
Qed.
Lemma rt_solves j : In j U -> (rtot U (fun k => rtvec k * rtot I (fun i => Y k i * Y j i)) + rtvec j / rinv j = rtot I (fun i => x i * Y j i))%R.
Proof.
  intros Hj. rewrite rt_sum. rewrite (rtot_ext _ _ (fun i => x i * Y j i - Y j i * rzvec i)%R) by (intros; ring). rewrite rtot_sub.
  unfold rtvec. pose proof (HR j Hj). field. lra.
Qed.
Lemma rt_spread : rtot I (fun i => x i * rzvec i)%R = (rtot I (fun i => x i * x i) - rtot U (fun k => rtvec k * rtot I (fun i => x i * Y k i)))%R.
Proof.
  assert (E : rtot U (fun k => rtvec k * rtot I (fun i => x i * Y k i))%R = rtot I (fun i => x i * (x i - rzvec i))%R).
  { rewrite (rtot_ext U _ (fun k => rtot I (fun i => (rtvec k * Y k i) * x i))%R).
    2:{ intros k _. rewrite <- rtot_mul_l. apply rtot_ext. intros. ring. }
    rewrite rtot_swap. apply rtot_ext. intros i Hi. rewrite rtot_mul_r.
    replace (rtot U (fun k => rtvec k * Y k i))%R with (x i - rzvec i)%R by (rewrite rz_t by exact Hi; ring). ring. }
  rewrite E, <- rtot_sub. apply rtot_ext. intros. ring.
Qed.
(** the analysis variance is between zero and the background variance *)
Lemma rt_nonneg : (0 <= rtot I (fun i => x i * rzvec i))%R.
Proof.
  pose proof (rpinv_psd rzvec) as H. rewrite (rtot_ext _ _ (fun i => x i * rzvec i)%R) in H; [exact H|].
  intros i Hi. cbn beta. unfold rzvec at 2. rewrite rpsol_ok by exact Hi. ring.
Qed.
Lemma rt_le : (rtot I (fun i => x i * rzvec i) <= rtot I (fun i => x i * x i))%R.
Proof.
  rewrite rt_spread.
  assert (E : rtot U (fun k => rtvec k * rtot I (fun i => x i * Y k i))%R =
    (rtot I (fun i => rtot U (fun k => rtvec k * Y k i) * rtot U (fun k => rtvec k * Y k i)) + rtot U (fun k => rtvec k * rtvec k / rinv k))%R).
  { rewrite (rtot_ext U _ (fun k => rtot I (fun i => rtot U (fun j => rtvec j * Y j i) * (rtvec k * Y k i)) + rtvec k * rtvec k / rinv k)%R).
    - rewrite rtot_add. f_equal. rewrite rtot_swap. apply rtot_ext. intros i _. rewrite rtot_mul_l. reflexivity.
    - intros k Hk. rewrite <- (rt_solves k Hk). rewrite Rmult_plus_distr_l. f_equal; [|unfold Rdiv; ring].
      rewrite <- rtot_mul_l. rewrite (rtot_ext U _ (fun j => rtot I (fun i => rtvec k * (rtvec j * (Y j i * Y k i))))%R).
      + rewrite rtot_swap. apply rtot_ext. intros i _. rewrite <- rtot_mul_r. apply rtot_ext. intros; ring.
      + intros j _. rewrite !rtot_mul_l. ring. }
  rewrite E. pose proof (sq_nonneg (fun i => rtot U (fun k => rtvec k * Y k i))%R) as P1. cbn beta in P1.
  assert (P2 : (0 <= rtot U (fun k => rtvec k * rtvec k / rinv k))%R).
  { apply rtot_nonneg. intros k Hk. pose proof (HR k Hk). apply Rmult_le_pos; [apply Rle_0_sqr|]. left. apply Rinv_0_lt_compat. lra. }
  lra.
Qed.
End Spread.
(** the matrix given to the eigenvalue solver *)
Variable M : R.
Hypothesis HM : (0 <= M)%R.
Definition ramat (i j : Z) : R := (M * P i j)%R.
Lemma ramat_sym i j : In i I -> In j I -> ramat i j = ramat j i.
Proof. intros Hi Hj. unfold ramat. rewrite rP_sym by assumption. reflexivity. Qed.
Lemma ramat_psd (c : Z -> R) : (0 <= rtot I (fun i => c i * rtot I (fun j => ramat i j * c j)))%R.
Proof.
  rewrite (rtot_ext _ _ (fun i => M * (c i * rpsol c i))%R).
  2:{ intros i _. unfold ramat, rpsol. rewrite (rtot_ext I (fun j => M * P i j * c j)%R (fun j => M * (P i j * c j))%R) by (intros; ring). rewrite rtot_mul_l. ring. }
  rewrite rtot_mul_l. apply Rmult_le_pos; [exact HM|].
  rewrite (rtot_ext _ _ (fun i => rpsol c i * rtot I (fun j => rpinv i j * rpsol c j))%R); [apply rpinv_psd|].
  intros i Hi. rewrite rpsol_ok by exact Hi. ring.
Qed.
(** *** the transform *)
Section Trans.
Variables (l : Z -> R) (v : Z -> Z -> R).
Hypothesis Ort : forall i j, In i I -> In j I -> rtot I (fun k => v k i * v k j)%R = runit i j.
Hypothesis Dec : forall i j, In i I -> In j I -> ramat i j = rtot I (fun k => v i k * l k * v j k)%R.
Notation W := (root n v l).
Lemma rW_sq i m : In i I -> In m I -> rtot I (fun j => W i j * W j m)%R = ramat i m.
Proof. apply (root_sq n ramat v l Ort Dec ramat_psd). Qed.
Lemma rpert_sq (x : Z -> R) : rtot I (fun e => rtot I (fun k => x k * W k e) * rtot I (fun k => x k * W k e))%R = (M * rtot I (fun i => x i * rzvec x i))%R.
Proof.
  transitivity (rtot I (fun k => rtot I (fun k' => x k * x k' * rtot I (fun e => W k e * W e k'))))%R.
  - rewrite (rtot_ext _ _ (fun e => rtot I (fun k => rtot I (fun k' => x k * x k' * (W k e * W e k'))))%R).
    + rewrite rtot_swap. apply rtot_ext. intros k _. rewrite rtot_swap. apply rtot_ext. intros k' _. rewrite rtot_mul_l. reflexivity.
    + intros e _. rewrite <- rtot_mul_r. apply rtot_ext. intros k _. rewrite <- rtot_mul_l. apply rtot_ext. intros k' _. rewrite (root_sym n v l e k'). ring.
  - rewrite <- rtot_mul_l. apply rtot_ext. intros k Hk. unfold rzvec, rpsol. rewrite <- !rtot_mul_l.
    apply rtot_ext. intros k' Hk'. rewrite rW_sq by assumption. unfold ramat. ring.
Qed.
End Trans.
End Inv.
(** *** uniqueness of the gain *)
Lemma rgain_unique (v v' : Z -> R) (d : Z -> R) :
  (forall j, In j U -> (rtot U (fun k => v k * rtot I (fun i => Y k i * Y j i)) + v j / rinv j = d j)%R) ->
  (forall j, In j U -> (rtot U (fun k => v' k * rtot I (fun i => Y k i * Y j i)) + v' j / rinv j = d j)%R) ->
  forall j, In j U -> v' j = v j.
Proof.
  intros H H'. set (u := fun k => (v' k - v k)%R).
  assert (E : forall j, In j U -> (rtot U (fun k => u k * rtot I (fun i => Y k i * Y j i)) + u j / rinv j = 0)%R).
  { intros j Hj. unfold u. rewrite (rtot_ext _ _ (fun k => v' k * rtot I (fun i => Y k i * Y j i) - v k * rtot I (fun i => Y k i * Y j i))%R) by (intros; ring).
    rewrite rtot_sub. specialize (H j Hj). specialize (H' j Hj).
    transitivity ((rtot U (fun k => v' k * rtot I (fun i => Y k i * Y j i)) + v' j / rinv j) - (rtot U (fun k => v k * rtot I (fun i => Y k i * Y j i)) + v j / rinv j))%R.
    - unfold Rdiv. ring. - rewrite H, H'. ring. }
  assert (Z0 : (rtot I (fun i => rtot U (fun k => u k * Y k i) * rtot U (fun k => u k * Y k i)) + rtot U (fun k => u k * u k * / rinv k))%R = 0%R).
  { transitivity (rtot U (fun j => u j * (rtot U (fun k => u k * rtot I (fun i => Y k i * Y j i)) + u j / rinv j)))%R.
    2:{ apply rtot_zero. intros j Hj. rewrite E by exact Hj. ring. }
    rewrite (rtot_ext U (fun j => u j * (rtot U (fun k => u k * rtot I (fun i => Y k i * Y j i)) + u j / rinv j))%R
               (fun j => rtot I (fun i => rtot U (fun k => u k * Y k i) * (u j * Y j i)) + u j * u j * / rinv j)%R).
    - rewrite rtot_add. f_equal. rewrite rtot_swap. apply rtot_ext. intros i _. rewrite <- rtot_mul_l. reflexivity.
    - intros j _. unfold Rdiv. rewrite Rmult_plus_distr_l. f_equal; [|ring]. rewrite <- rtot_mul_l.
      rewrite (rtot_ext U _ (fun k => rtot I (fun i => u j * (u k * (Y k i * Y j i))))%R).
      2:{ intros k _. rewrite !rtot_mul_l. reflexivity. }
      rewrite rtot_swap. apply rtot_ext. intros i _. rewrite <- rtot_mul_r. apply rtot_ext. intros. ring. }
  pose proof (sq_nonneg (fun i => rtot U (fun k => u k * Y k i))%R) as P1. cbn beta in P1.
  assert (P2 : forall k, In k U -> (0 <= u k * u k * / rinv k)%R).
  { intros k Hk. pose proof (HR k Hk). apply Rmult_le_pos; [apply Rle_0_sqr|]. left. apply Rinv_0_lt_compat. lra. }
  pose proof (rtot_nonneg U _ P2) as P3.
  assert (Z1 : rtot U (fun k => u k * u k * / rinv k)%R = 0%R) by lra.
  intros j Hj. pose proof (rtot_zero_each U _ Z1 P2 j Hj) as Z2. cbn beta in Z2. pose proof (HR j Hj) as P4.
  assert (u j * u j = 0)%R. { apply Rmult_integral in Z2 as [Z2|Z2]; [exact Z2|]. pose proof (Rinv_0_lt_compat _ P4). lra. }
  apply Rsqr_0_uniq in H0. unfold u in H0. lra.
Qed.
End Alg.
(** an eigenvector of the matrix is an eigenvector of its root *)
Lemma root_eigen n A v l mu c :
  (forall i j, In i (zrange 0 n) -> In j (zrange 0 n) -> rtot (zrange 0 n) (fun k => v k i * v k j)%R = runit i j) ->
  (forall i j, In i (zrange 0 n) -> In j (zrange 0 n) -> A i j = rtot (zrange 0 n) (fun k => v i k * l k * v j k)%R) ->
  (forall c, (0 <= rtot (zrange 0 n) (fun i => c i * rtot (zrange 0 n) (fun j => A i j * c j)))%R) -> (0 < mu)%R ->
  (forall i, In i (zrange 0 n) -> rtot (zrange 0 n) (fun j => A i j * c j)%R = (mu * c i)%R) ->
  forall i, In i (zrange 0 n) -> rtot (zrange 0 n) (fun j => root n v l i j * c j)%R = (sqrt mu * c i)%R.
Proof.
  intros Ort Dec Psd Hmu HA i Hi. pose proof (sqrt_lt_R0 _ Hmu) as Sp.
  assert (Ln : forall k, In k (zrange 0 n) -> (0 <= l k)%R) by (apply (eig_nonneg n A v l Ort Dec Psd)).
  (* the root of A / mu *)
  assert (ER : forall i j, (root n v (fun k => l k / mu) i j * sqrt mu = root n v l i j)%R).
  { intros a b. unfold root. rewrite <- rtot_mul_r. apply rtot_ext. intros k Hk. rewrite sqrt_div by auto. field. lra. }
  pose proof (root_fixed n (fun i j => A i j / mu)%R v (fun k => l k / mu)%R Ort) as RF0.
  rewrite (rtot_ext _ _ (fun j => (root n v (fun k => l k / mu) i j * c j) * sqrt mu)%R) by (intros; rewrite <- ER; ring). rewrite rtot_mul_r.
  rewrite RF0; auto.
  - ring.
  - intros a b Ha Hb. rewrite Dec by assumption. unfold Rdiv at 1. rewrite <- rtot_mul_r. apply rtot_ext. intros; unfold Rdiv; ring.
  - intros c'. rewrite (rtot_ext _ _ (fun i => (c' i * rtot (zrange 0 n) (fun j => A i j * c' j)) * / mu)%R).
    + rewrite rtot_mul_r. apply Rmult_le_pos; [apply Psd|]. left. apply Rinv_0_lt_compat. exact Hmu.
    + intros a Ha. rewrite Rmult_assoc. f_equal. rewrite <- rtot_mul_r. apply rtot_ext. intros; unfold Rdiv; ring.
  - intros a Ha. rewrite (rtot_ext _ _ (fun j => (A a j * c j) * / mu)%R) by (intros; unfold Rdiv; ring). rewrite rtot_mul_r, HA by exact Ha. field. lra.
Qed.
