(** The ensemble transform with ensemble correlations: the code's transform is the one specified. *)
From Coq Require Import Lra.
From Verif Require Import Base QcTac ListLib RBase P_RBase M_Geo S_Geo M_OI S_OI P_OISum P_OI M_Ensi M_EnsDyn M_EnsUtem S_EnsMulti S_Ensi S_EnsDyn S_EnsUtem P_RSum P_EnsiAlg P_RAlg P_EnsiSpec P_EnsiRoot P_EnsDyn P_EnsUtem.
Local Open Scope Z_scope.

Lemma zsc_sum ms f : ms <> [] -> rtot ms (zsc ms f) = 0%R.
Proof.
  intros NE. unfold zsc. destruct (steady_dec ms f) as [H|H]; [apply rtot_zero; reflexivity|].
  rewrite (rtot_ext ms _ (fun e => qr (dev ms f e) * (1 / sqrt (IZR (zlen ms - 1)) / sdev ms f))%R) by (intros; unfold Rdiv; ring).
  rewrite rtot_mul_r, <- qr_tot, tot_dev by exact NE. rewrite qr_0. ring.
Qed.
Lemma zsc_standardized ms f : 2 <= zlen ms -> standardized ms f (fun e => sqrt (IZR (zlen ms - 1)) * zsc ms f e)%R.
Proof.
  intros H2 e He. assert (P : (0 < IZR (zlen ms - 1))%R) by (apply IZR_lt; lia). pose proof (sqrt_lt_R0 _ P) as P3.
  unfold zsc. destruct (steady_dec ms f) as [H|H]; (split; [intros S|intros S]); try contradiction; [ring|]. unfold steady in H. field. split; lra.
Qed.
(** the inverse square root is determined *)
Lemma inverse_root_unique ms F T T' : NoDup ms -> (forall e f, In e ms -> In f ms -> F e f = F f e) -> inverse_root ms F T -> inverse_root ms F T' ->
  forall e f, In e ms -> In f ms -> T e f = T' e f.
Proof.
  intros ND FS (S1 & P1 & I1) (S2 & P2 & I2).
  set (T2 := fun e f => rtot ms (fun i => T e i * T i f)%R). set (T2' := fun e f => rtot ms (fun i => T' e i * T' i f)%R).
  assert (Sq : forall (A : Z -> Z -> R) e f, In e ms -> In f ms -> (forall e f, In e ms -> In f ms -> A e f = A f e) ->
     rtot ms (fun i => A e i * A i f)%R = rtot ms (fun i => A f i * A i e)%R).
  { intros A e f He Hf HA. apply rtot_ext. intros i Hi. rewrite (HA e i He Hi), (HA i f Hi Hf). ring. }
  assert (J1 : forall e f, In e ms -> In f ms -> rtot ms (fun j => T2 e j * F j f)%R = runit e f).
  { intros e f He Hf. rewrite <- (I1 e f He Hf). rewrite (rtot_swap ms ms). apply rtot_ext. intros j Hj. unfold T2. rewrite <- rtot_mul_r. reflexivity. }
  assert (J2 : forall e f, In e ms -> In f ms -> rtot ms (fun j => T2' e j * F j f)%R = runit e f).
  { intros e f He Hf. rewrite <- (I2 e f He Hf). rewrite (rtot_swap ms ms). apply rtot_ext. intros j Hj. unfold T2'. rewrite <- rtot_mul_r. reflexivity. }
  assert (J1' : forall e f, In e ms -> In f ms -> rtot ms (fun j => F e j * T2 j f)%R = runit e f).
  { intros e f He Hf. rewrite runit_sym, <- (J1 f e Hf He). apply rtot_ext. intros j Hj. rewrite (FS e j) by assumption. unfold T2. rewrite (Sq T j f Hj Hf S1). ring. }
  intros e f He Hf. apply (sqrt_unique ms T T'); auto; [split; auto|split; auto|].
  intros i j Hi Hj. fold (T2 i j) (T2' i j).
  assert (E : T2' i j = rtot ms (fun k => T2' i k * rtot ms (fun h => F k h * T2 h j))%R).
  { rewrite (rtot_ext ms _ (fun k => T2' i k * runit k j)%R) by (intros k Hk; rewrite J1' by assumption; reflexivity).
    symmetry. apply (rtot_delta ms (fun k => T2' i k) j ND Hj). }
  rewrite E.
  rewrite (rtot_ext ms _ (fun k => rtot ms (fun h => T2' i k * F k h * T2 h j))%R) by (intros; rewrite <- rtot_mul_l; apply rtot_ext; intros; ring).
  rewrite rtot_swap. rewrite (rtot_ext ms _ (fun h => T2 h j * runit h i)%R).
  - symmetry. apply (rtot_delta ms (fun h => T2 h j) i ND Hi).
  - intros h Hh. rewrite rtot_mul_r, J2 by assumption. rewrite (runit_sym i h). ring.
Qed.
(** *** the analysis is determined *)
Lemma correlation_uniq ms f h c c' : correlation ms f h c -> correlation ms f h c' -> c = c'.
Proof.
  intros [A B] [A' B']. destruct (steady_dec ms f) as [Hf|Hf]; [rewrite A, A' by auto; reflexivity|]. destruct (steady_dec ms h) as [Hh|Hh]; [rewrite A, A' by auto; reflexivity|].
  specialize (B Hf Hh). specialize (B' Hf Hh). rewrite <- B' in B. unfold steady in *. apply Rmult_eq_reg_r in B; [|lra]. apply Rmult_eq_reg_r in B; [exact B|lra].
Qed.
Lemma standardized_uniq ms f z z' : standardized ms f z -> standardized ms f z' -> forall e, In e ms -> z e = z' e.
Proof.
  intros H H' e He. destruct (H e He) as [A B]. destruct (H' e He) as [A' B']. destruct (steady_dec ms f) as [Hf|Hf]; [rewrite A, A' by exact Hf; reflexivity|].
  specialize (B Hf). specialize (B' Hf). rewrite <- B' in B. unfold steady in *. apply Rmult_eq_reg_r in B; [exact B|lra].
Qed.
Lemma analysis_determined ms U x xc bc ratio g d s a a' : NoDup ms -> utem_analysis ms U x xc bc ratio g d s a -> utem_analysis ms U x xc bc ratio g d s a' ->
  forall e, In e ms -> a e = a' e.
Proof.
  intros ND (cs & cx & cxx & m & q & zx & zs & T & (C1 & C2 & _) & (v & [V1 V2] & Em) & _ & Zx & Zs & HT & _ & _ & Ha)
    (cs' & cx' & cxx' & m' & q' & zx' & zs' & T' & (C1' & C2' & _) & (v' & [V1' V2'] & Em') & _ & Zx' & Zs' & HT' & _ & _ & Ha') e He.
  assert (Ec : forall k j, In k U -> In j U -> cs k j = cs' k j).
  { intros k j Hk Hj. destruct (C1 k j Hk Hj) as (c & K1 & ->). destruct (C1' k j Hk Hj) as (c' & K2 & ->). rewrite (correlation_uniq _ _ _ _ _ K1 K2). reflexivity. }
  assert (Ex : forall k, In k U -> cx k = cx' k).
  { intros k Hk. destruct (C2 k Hk) as (c & K1 & ->). destruct (C2' k Hk) as (c' & K2 & ->). rewrite (correlation_uniq _ _ _ _ _ K1 K2). reflexivity. }
  assert (Ev : forall k, In k U -> v' k = v k).
  { apply V2. intros j Hj. rewrite <- (V1' j Hj). apply rtot_ext. intros k Hk. rewrite Ec by assumption. reflexivity. }
  assert (E1 : m = m'). { rewrite Em, Em'. do 2 f_equal. apply rtot_ext. intros k Hk. rewrite Ev, Ex by exact Hk. reflexivity. }
  assert (Ezx : forall f, In f ms -> zx f = zx' f) by (apply (standardized_uniq ms xc); assumption).
  assert (Ezs : forall k f, In k U -> In f ms -> zs k f = zs' k f) by (intros k f Hk Hf; apply (standardized_uniq ms (bc k)); auto).
  assert (EF : forall f h, In f ms -> In h ms -> rprecision U ms zs ratio g f h = rprecision U ms zs' ratio g f h).
  { intros f h Hf Hh. unfold rprecision. do 2 f_equal. apply rtot_ext. intros k Hk. rewrite !Ezs by assumption. reflexivity. }
  assert (HT2 : inverse_root ms (rprecision U ms zs ratio g) T').
  { destruct HT' as (S & P & J). split; [exact S|]. split; [exact P|]. intros f h Hf Hh. rewrite <- (J f h Hf Hh). apply rtot_ext. intros i Hi. apply rtot_ext. intros j Hj. rewrite EF by assumption. reflexivity. }
  assert (ET : forall f h, In f ms -> In h ms -> T f h = T' f h).
  { apply (inverse_root_unique ms (rprecision U ms zs ratio g)); try assumption. intros f h _ _. unfold rprecision. rewrite runit_sym. do 2 f_equal. apply rtot_ext. intros; ring. }
  rewrite Ha, Ha' by exact He. rewrite E1. do 2 f_equal. apply rtot_ext. intros f Hf. rewrite Ezx, ET by assumption. reflexivity.
Qed.

Section Spec.
Variables (ms U : list Z) (b bc : Z -> Z -> Qc) (x xc s gg o : Z -> Qc) (c0 : Qc).
Let n := zlen ms.
Hypothesis NDM : NoDup ms.
Hypothesis NDU : NoDup U.
Hypothesis Hn : 2 <= n.
Hypothesis Hg : forall k, In k U -> (0 < gg k)%Qc.
Hypothesis Hs : forall k, In k U -> (0 < s k)%Qc.
Notation I := (zrange 0 n).
Notation Y := (uY ms bc).
Notation rin := (urin gg s).
Notation d := (ud ms b o).
Notation MM := (IZR (n - 1)).
Variables (P : Z -> Z -> R) (l : Z -> R) (v : Z -> Z -> R).
Hypothesis HS : usolved ms U bc gg s P l v.
Let PL := proj1 HS.
Let PR := proj1 (proj2 HS).
Let Ort := proj1 (proj2 (proj2 HS)).
Let Dec := proj2 (proj2 (proj2 HS)).
Definition zxi (i : Z) : R := zsc ms xc (ix ms i).
Lemma msne : ms <> []. Proof. intros E. unfold n in Hn. rewrite E, zlen_nil in Hn. lia. Qed.
Lemma MM_pos : (0 < MM)%R. Proof. apply IZR_lt. lia. Qed.
Lemma rinp k : In k U -> (0 < rin k)%R.
Proof.
  intros Hk. unfold urin. rewrite <- qr_0. apply qr_lt. unfold Qcdiv. rewrite <- (Qcmult_0_l (/ s k)%Qc). apply Qcmult_lt_compat_r; [apply inv_pos; auto|auto].
Qed.
Lemma rin_div w k : In k U -> (w / rin k)%R = (w * qr (s k / gg k)%Qc)%R.
Proof.
  intros Hk. pose proof (Hg k Hk) as G. pose proof (Hs k Hk) as K. unfold urin.
  assert (G0 : gg k <> 0%Qc) by (intros X; rewrite X in G; discriminate G). assert (K0 : s k <> 0%Qc) by (intros X; rewrite X in K; discriminate K).
  pose proof (rinp k Hk) as R. unfold urin in R. assert (E : (qr (s k / gg k)%Qc * qr (gg k / s k)%Qc = 1)%R). { rewrite <- qr_mul, <- qr_1. f_equal. field. auto. }
  apply (Rmult_eq_reg_r (qr (gg k / s k)%Qc)); [|lra]. rewrite Rmult_assoc, E. field. lra.
Qed.
Definition csv (k j : Z) : R := rtot I (fun i => Y k i * Y j i)%R.
Definition cxv (k : Z) : R := rtot I (fun i => zxi i * Y k i)%R.
Definition cxxv : R := rtot I (fun i => zxi i * zxi i)%R.
Lemma corr_ok : scaled_corr (IZR n / MM) ms U xc bc csv cxv cxxv.
Proof.
  assert (K : forall f h, exists c, correlation ms f h c /\ rtot I (fun i => zsc ms f (ix ms i) * zsc ms h (ix ms i))%R = (IZR n / MM * c)%R).
  { intros f h. destruct (has_correlation ms f h) as [c Hc]. exists c. split; [exact Hc|]. transitivity (rtot ms (fun e => zsc ms f e * zsc ms h e)%R); [symmetry; apply (rtot_ix ms (fun e => zsc ms f e * zsc ms h e)%R)|apply (inner_corr ms f h c NDM msne Hc)]. }
  split; [|split]; intros; apply K.
Qed.
Lemma weights_iff r w : rweights U csv (fun k => qr (s k / gg k)%Qc) r w <-> forall j, In j U -> (rtot U (fun k => w k * rtot I (fun i => Y k i * Y j i)) + w j / rin j = r j)%R.
Proof.
  unfold rweights.
  assert (E : forall j, In j U -> rtot U (fun k => w k * (csv k j + (if (k =? j)%Z then qr (s k / gg k)%Qc else 0)))%R = (rtot U (fun k => w k * rtot I (fun i => Y k i * Y j i)) + w j / rin j)%R).
  { intros j Hj. rewrite rin_div by exact Hj. rewrite (rtot_ext U _ (fun k => w k * csv k j + (w k * qr (s k / gg k)%Qc) * runit k j)%R).
    - rewrite rtot_add. f_equal. apply (rtot_delta U (fun k => w k * qr (s k / gg k)%Qc)%R j NDU Hj).
    - intros k _. unfold runit. destruct (k =? j)%Z; ring. }
  split; intros H j Hj; [rewrite <- E by exact Hj; apply H; exact Hj|rewrite E by exact Hj; apply H; exact Hj].
Qed.
Lemma weights_uniq r w : rweights U csv (fun k => qr (s k / gg k)%Qc) r w -> runique_on U (rweights U csv (fun k => qr (s k / gg k)%Qc) r) w.
Proof.
  intros H. split; [exact H|]. intros w' H' k Hk. exact (rgain_unique n U Y rin rinp w w' r (proj1 (weights_iff r w) H) (proj1 (weights_iff r w') H') k Hk).
Qed.
Notation wv := (rwvec n U Y rin P d).
Definition umval : R := (qr (avg ms x) + qr c0 * rtot I (fun i => zxi i * wv i))%R.
Lemma umean_ok : utem_mean ms U x csv cxv s gg (fun k => o k - avg ms (b k))%Qc c0 umval.
Proof.
  exists (rvvec n U Y rin P d). split.
  - apply weights_uniq. apply (proj2 (weights_iff _ _)). intros j Hj. apply (rv_solves n U Y rin rinp P PR d j Hj).
  - unfold umval. do 2 f_equal. apply (rv_mean n U Y rin P PR d zxi).
Qed.
Definition uvval : R := (sdev ms x * sdev ms x * rtot I (fun i => zxi i * rzvec n P zxi i))%R.
Lemma uvar_ok : utem_var ms U x csv cxv cxxv s gg uvval.
Proof.
  exists (rtvec n Y rin P zxi). split; [|split; [|split]].
  - apply weights_uniq. apply (proj2 (weights_iff _ _)). intros j Hj. apply (rt_solves n U Y rin rinp P PR zxi j Hj).
  - unfold uvval. f_equal. apply (rt_spread n U Y rin P PR zxi).
  - apply Rmult_le_pos; [apply Rle_0_sqr|]. apply (rt_nonneg n U Y rin rinp P PR zxi).
  - apply Rmult_le_compat_l; [apply Rle_0_sqr|]. apply (rt_le n U Y rin rinp P PR zxi).
Qed.
Notation W := (root n v l).
Lemma psdA : forall c, (0 <= rtot I (fun i => c i * rtot I (fun j => ramat P MM i j * c j)))%R.
Proof. apply (ramat_psd n U Y rin rinp P PR MM). pose proof MM_pos. lra. Qed.
Lemma W_ones i : In i I -> rtot I (fun j => W i j)%R = sqrt MM.
Proof.
  intros Hi. pose proof (root_eigen n (ramat P MM) v l MM (fun _ => 1%R) Ort Dec psdA MM_pos) as H.
  rewrite (rtot_ext I _ (fun j => W i j * 1)%R) by (intros; ring). rewrite H; [ring| |exact Hi].
  intros j Hj. transitivity (MM * rtot I (fun h => P j h))%R; [rewrite <- rtot_mul_l; apply rtot_ext; intros; unfold ramat; ring|].
  f_equal. apply (rP_ones n U Y rin P PL j); [|exact Hj]. intros k Hk. rewrite <- (zsc_sum ms (bc k) msne). rewrite (rtot_ix ms). reflexivity.
Qed.
Lemma zxi_sum : rtot I zxi = 0%R. Proof. rewrite <- (zsc_sum ms xc msne). rewrite (rtot_ix ms). reflexivity. Qed.
Section Out.
Variables (p : Z -> Z) (a : Z -> R).
Hypothesis Hp : forall i, 0 <= i < n -> p (ix ms i) = i.
Hypothesis Ha : forall e, 0 <= e < n -> a (ix ms e) = (qr (avg ms x) + uincr ms U b bc x xc gg s o c0 P l v e)%R.
Lemma a_split e : 0 <= e < n -> a (ix ms e) = (umval + sdev ms x * rtot I (fun k => zxi k * W k e))%R.
Proof.
  intros He. rewrite Ha by exact He. unfold uincr, umval. fold n.
  rewrite (rtot_ext I _ (fun k => sdev ms x * (zxi k * W k e) + qr c0 * (zxi k * wv k))%R) by (intros; unfold zxi; ring).
  rewrite rtot_add, !rtot_mul_l. ring.
Qed.
Lemma n_nz : IZR n <> 0%R. Proof. apply not_0_IZR. lia. Qed.
Lemma pert_sum : rtot I (fun e => rtot I (fun k => zxi k * W k e))%R = 0%R.
Proof. rewrite rtot_swap. rewrite (rtot_ext I _ (fun k => zxi k * sqrt MM)%R) by (intros k Hk; rewrite rtot_mul_l, W_ones by exact Hk; reflexivity). rewrite rtot_mul_r, zxi_sum. ring. Qed.
Lemma ua_mean : ravg ms a = umval.
Proof.
  unfold ravg. fold n. rewrite (rtot_ix ms). fold n.
  rewrite (rtot_ext I _ (fun e => umval + sdev ms x * rtot I (fun k => zxi k * W k e))%R) by (intros e He; apply in_zrange in He; apply a_split; exact He).
  rewrite rtot_add, rtot_mul_l, pert_sum, rtot_const, zlen_zrange. replace (Z.max 0 (n - 0)) with n by lia. field. exact n_nz.
Qed.
Lemma ua_var : rvar ms a = uvval.
Proof.
  unfold rvar. rewrite ua_mean, (rtot_ix ms). fold n.
  rewrite (rtot_ext I _ (fun e => (sdev ms x * sdev ms x) * (rtot I (fun k => zxi k * W k e) * rtot I (fun k => zxi k * W k e)))%R).
  2:{ intros e He. apply in_zrange in He. rewrite a_split by exact He. ring. }
  rewrite rtot_mul_l. rewrite (rpert_sq n U Y rin rinp P PR MM ltac:(pose proof MM_pos; lra) l v Ort Dec zxi). unfold uvval. field. pose proof MM_pos. lra.
Qed.
Lemma Eu i j : 0 <= i < n -> 0 <= j < n -> runit (ix ms i) (ix ms j) = runit i j.
Proof.
  intros Hi Hj. unfold runit. destruct (Z.eqb_spec i j) as [-> |N]; [rewrite Z.eqb_refl; reflexivity|]. destruct (Z.eqb_spec (ix ms i) (ix ms j)) as [E|_]; [|reflexivity].
  exfalso. apply N. exact (ix_inj ms i j NDM Hi Hj E).
Qed.
Lemma prec_pinv i j : 0 <= i < n -> 0 <= j < n ->
  rprecision U ms (fun k e => sqrt MM * zsc ms (bc k) e)%R s gg (ix ms i) (ix ms j) = rpinv U Y rin i j.
Proof.
  intros Hi Hj. unfold rprecision, rpinv. rewrite Eu by assumption. rewrite Rplus_comm. f_equal. fold n.
  rewrite (rtot_ext U _ (fun k => MM * (Y k i * rin k * Y k j))%R).
  - rewrite rtot_mul_l. field. pose proof MM_pos. lra.
  - intros k _. unfold uY, urin. pose proof (sqrt_sqrt MM ltac:(pose proof MM_pos; lra)) as SQ. rewrite <- SQ at 3. ring.
Qed.
Lemma utrans_ok : inverse_root ms (rprecision U ms (fun k e => sqrt MM * zsc ms (bc k) e)%R s gg) (fun e f => W (p e) (p f) / sqrt MM)%R.
Proof.
  pose proof MM_pos as MP. pose proof (sqrt_lt_R0 _ MP) as SP. split; [|split].
  - intros e f _ _. rewrite (root_sym n v l). reflexivity.
  - intros c. rewrite (rtot_ix ms). fold n. rewrite (rtot_ext I _ (fun i => (c (ix ms i) * rtot I (fun j => W i j * c (ix ms j))) * / sqrt MM)%R).
    + rewrite rtot_mul_r. apply Rmult_le_pos; [|left; apply Rinv_0_lt_compat; exact SP]. apply (root_psd n v l (fun i => c (ix ms i))).
    + intros i Hi. apply in_zrange in Hi. rewrite Rmult_assoc. f_equal. rewrite (rtot_ix ms), <- rtot_mul_r. fold n. apply rtot_ext. intros j Hj. apply in_zrange in Hj. rewrite !Hp by assumption. unfold Rdiv. ring.
  - intros e f He Hf. apply In_ix in He as (i & Hi & <-). apply In_ix in Hf as (j & Hj & <-). fold n in Hi, Hj. rewrite Eu by assumption.
    rewrite <- (PL i j) by (apply in_zrange; assumption). rewrite rtot_swap. rewrite (rtot_ix ms). fold n. apply rtot_ext. intros h Hh. pose proof Hh as Hh'. apply in_zrange in Hh.
    rewrite rtot_mul_r. rewrite prec_pinv by assumption. f_equal. rewrite (rtot_ix ms). fold n.
    rewrite (rtot_ext I _ (fun k => (W i k * W k h) * / MM)%R).
    + rewrite rtot_mul_r. rewrite (root_sq n (ramat P MM) v l Ort Dec psdA) by (try assumption; apply in_zrange; assumption). unfold ramat. field. lra.
    + intros k Hk. apply in_zrange in Hk. rewrite !Hp by assumption. rewrite <- (sqrt_sqrt MM) at 3 by lra. field. lra.
Qed.
Lemma analysis_ok : utem_analysis ms U x xc bc s gg (fun k => o k - avg ms (b k))%Qc c0 a.
Proof.
  exists csv, cxv, cxxv, umval, uvval, (fun e => sqrt MM * zsc ms xc e)%R, (fun k e => sqrt MM * zsc ms (bc k) e)%R, (fun e f => W (p e) (p f) / sqrt MM)%R.
  split; [exact corr_ok|]. split; [exact umean_ok|]. split; [exact uvar_ok|]. split; [apply zsc_standardized; exact Hn|]. split; [intros k _; apply zsc_standardized; exact Hn|].
  split; [exact utrans_ok|]. split; [exact ua_mean|]. split; [exact ua_var|]. intros e He. apply In_ix in He as (i & Hi & <-). fold n in Hi. rewrite a_split by exact Hi.
  do 2 f_equal. rewrite (rtot_ix ms). fold n. apply rtot_ext. intros k Hk. apply in_zrange in Hk. rewrite !Hp by assumption. unfold zxi. field.
  pose proof (sqrt_lt_R0 _ MM_pos). lra.
Qed.
End Out.
End Spec.
