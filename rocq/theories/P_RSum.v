(** Finite sums of reals and the symmetric square root used by the ensemble transform. *)
From Coq Require Import Lra.
From Verif Require Import Base QcTac ListLib RBase P_RBase M_Geo S_Geo M_OI S_OI P_OISum M_Ensi S_EnsMulti S_Ensi.
Local Open Scope Z_scope.

Lemma rtot_ext U f g : (forall k, In k U -> f k = g k) -> rtot U f = rtot U g.
Proof. intros H. unfold rtot. rewrite (map_ext_in _ _ _ H). reflexivity. Qed.
Lemma rtot_cons k U f : rtot (k :: U) f = (f k + rtot U f)%R. Proof. reflexivity. Qed.
Lemma rtot_app U V f : rtot (U ++ V) f = (rtot U f + rtot V f)%R.
Proof. induction U as [|k U IH]; cbn [app]; [unfold rtot at 2; cbn [map fold_right]; ring|]. rewrite !rtot_cons, IH. ring. Qed.
Lemma rtot_add U f g : rtot U (fun k => f k + g k)%R = (rtot U f + rtot U g)%R.
Proof. induction U as [|k U IH]; [unfold rtot; cbn [map fold_right]; ring|]. rewrite !rtot_cons, IH. ring. Qed.
Lemma rtot_sub U f g : rtot U (fun k => f k - g k)%R = (rtot U f - rtot U g)%R.
Proof. induction U as [|k U IH]; [unfold rtot; cbn [map fold_right]; ring|]. rewrite !rtot_cons, IH. ring. Qed.
Lemma rtot_mul_r U f c : rtot U (fun k => f k * c)%R = (rtot U f * c)%R.
Proof. induction U as [|k U IH]; [unfold rtot; cbn [map fold_right]; ring|]. rewrite !rtot_cons, IH. ring. Qed.
Lemma rtot_mul_l U f c : rtot U (fun k => c * f k)%R = (c * rtot U f)%R.
Proof. induction U as [|k U IH]; [unfold rtot; cbn [map fold_right]; ring|]. rewrite !rtot_cons, IH. ring. Qed.
Lemma rtot_zero U f : (forall k, In k U -> f k = 0%R) -> rtot U f = 0%R.
Proof. induction U as [|k U IH]; intros H; [reflexivity|]. rewrite rtot_cons, (H k) by (left; reflexivity). rewrite IH by (intros; apply H; right; assumption). ring. Qed.
Lemma rtot_swap U V f : rtot U (fun i => rtot V (fun j => f i j)) = rtot V (fun j => rtot U (fun i => f i j)).
Proof.
  induction U as [|k U IH]; [symmetry; apply rtot_zero; reflexivity|].
  rewrite rtot_cons, IH, <- rtot_add. apply rtot_ext. intros j _. rewrite rtot_cons. reflexivity.
Qed.
Lemma rtot_nonneg U f : (forall k, In k U -> (0 <= f k)%R) -> (0 <= rtot U f)%R.
Proof.
  induction U as [|k U IH]; intros H; [unfold rtot; cbn; lra|]. rewrite rtot_cons.
  pose proof (H k (or_introl eq_refl)). pose proof (IH (fun j Hj => H j (or_intror Hj))). lra.
Qed.
Lemma rtot_delta U f j : NoDup U -> In j U -> rtot U (fun i => f i * runit i j)%R = f j.
Proof.
  induction U as [|k U IH]; intros ND Hj; [destruct Hj|]. inversion ND as [|? ? Hn ND']; subst. rewrite rtot_cons.
  unfold runit at 1. destruct Hj as [-> | Hj].
  - rewrite Z.eqb_refl, (rtot_zero U). { ring. }
    intros i Hi. unfold runit. destruct (Z.eqb_spec i j); [subst; contradiction|ring].
  - destruct (Z.eqb_spec k j); [subst; contradiction|]. rewrite IH by assumption. ring.
Qed.

Lemma rtot_ix U f : rtot U f = rtot (zrange 0 (zlen U)) (fun i => f (ix U i)).
Proof. unfold rtot. rewrite (map_ix f U). reflexivity. Qed.
Lemma qr_tot U f : qr (tot U f) = rtot U (fun k => qr (f k)).
Proof. induction U as [|k U IH]; [exact qr_0|]. rewrite tot_cons, rtot_cons, qr_add, IH. reflexivity. Qed.
Lemma qr_unit i j : qr (unit_ i j) = runit i j.
Proof. unfold unit_, runit. destruct (i =? j); [exact qr_1|exact qr_0]. Qed.
Lemma runit_sym i j : runit i j = runit j i.
Proof. unfold runit. rewrite Z.eqb_sym. reflexivity. Qed.
Lemma rtot_zero_each U f : rtot U f = 0%R -> (forall i, In i U -> (0 <= f i)%R) -> forall i, In i U -> f i = 0%R.
Proof.
  induction U as [|k U IH]; intros H P i Hi; [destruct Hi|]. rewrite rtot_cons in H.
  pose proof (P k (or_introl eq_refl)). pose proof (rtot_nonneg U f (fun j Hj => P j (or_intror Hj))).
  destruct Hi as [<- |Hi]; [lra|]. apply IH; auto. { lra. } intros; apply P; right; assumption.
Qed.

Section Root.
Variables (n : Z) (A v : Z -> Z -> R) (l : Z -> R).
Notation I := (zrange 0 n).
Hypothesis Ort : forall i j, In i I -> In j I -> rtot I (fun k => v k i * v k j)%R = runit i j.
Hypothesis Dec : forall i j, In i I -> In j I -> A i j = rtot I (fun k => v i k * l k * v j k)%R.
Hypothesis Psd : forall c, (0 <= rtot I (fun i => c i * rtot I (fun j => A i j * c j)))%R.
Definition root (i j : Z) : R := rtot I (fun k => v i k * sqrt (l k) * v j k)%R.

Lemma eig_form (d : Z -> R) (B : Z -> Z -> R) (c c' : Z -> R) : (forall i j, In i I -> In j I -> B i j = rtot I (fun k => v i k * d k * v j k)%R) ->
  rtot I (fun i => c i * rtot I (fun j => B i j * c' j))%R = rtot I (fun k => d k * (rtot I (fun i => c i * v i k) * rtot I (fun j => v j k * c' j)))%R.
Proof.
  intros HB. transitivity (rtot I (fun i => rtot I (fun k => rtot I (fun j => c i * v i k * d k * (v j k * c' j)))))%R.
  - apply rtot_ext. intros i Hi. rewrite <- rtot_mul_l. rewrite rtot_swap. apply rtot_ext. intros j Hj. rewrite HB by assumption.
    rewrite <- rtot_mul_r, <- rtot_mul_l. apply rtot_ext. intros. ring.
  - rewrite rtot_swap. apply rtot_ext. intros k Hk. rewrite <- rtot_mul_r, <- rtot_mul_l. apply rtot_ext. intros i Hi.
    rewrite rtot_mul_l. ring.
Qed.
Lemma eig_nonneg k : In k I -> (0 <= l k)%R.
Proof.
  intros Hk. pose proof (Psd (fun i => v i k)) as H. rewrite (eig_form l A) in H by exact Dec.
  erewrite (rtot_ext _ _ (fun j => l j * runit j k)%R) in H.
  2:{ intros j Hj. cbn beta. f_equal. rewrite (rtot_ext _ (fun i => v i k * v i j)%R (fun i => v i j * v i k)%R) by (intros; ring). rewrite Ort by assumption.
      unfold runit. destruct (j =? k); ring. }
  rewrite rtot_delta in H; [exact H|apply NoDup_zrange|exact Hk].
Qed.
Lemma root_sym i j : root i j = root j i.
Proof. apply rtot_ext. intros. ring. Qed.
Lemma root_psd c : (0 <= rtot I (fun i => c i * rtot I (fun j => root i j * c j)))%R.
Proof.
  rewrite (eig_form (fun k => sqrt (l k)) root) by reflexivity. apply rtot_nonneg. intros k Hk.
  rewrite (rtot_ext _ (fun j => v j k * c j)%R (fun j => c j * v j k)%R) by (intros; ring). apply Rmult_le_pos; [apply R_sqrt.sqrt_pos|nra].
Qed.
Lemma root_sq i m : In i I -> In m I -> rtot I (fun j => root i j * root j m)%R = A i m.
Proof.
  intros Hi Hm. unfold root.
  transitivity (rtot I (fun k => rtot I (fun k' => v i k * sqrt (l k) * (sqrt (l k') * v m k') * rtot I (fun j => v j k * v j k'))))%R.
  - transitivity (rtot I (fun j => rtot I (fun k => rtot I (fun k' => v i k * sqrt (l k) * (sqrt (l k') * v m k') * (v j k * v j k')))))%R.
    + apply rtot_ext. intros j Hj. rewrite <- rtot_mul_r. apply rtot_ext. intros k Hk. rewrite <- rtot_mul_l. apply rtot_ext. intros. ring.
    + rewrite rtot_swap. apply rtot_ext. intros k Hk. rewrite rtot_swap. apply rtot_ext. intros k' Hk'. rewrite rtot_mul_l. reflexivity.
  - rewrite Dec by assumption. apply rtot_ext. intros k Hk.
    rewrite (rtot_ext _ _ (fun k' => (v i k * sqrt (l k) * (sqrt (l k') * v m k')) * runit k' k)%R).
    2:{ intros k' Hk'. rewrite Ort by assumption. rewrite runit_sym. reflexivity. }
    rewrite (rtot_delta I (fun k' => v i k * sqrt (l k) * (sqrt (l k') * v m k'))%R k (NoDup_zrange _ _) Hk).
    pose proof (R_sqrt.sqrt_sqrt _ (eig_nonneg k Hk)). replace (v i k * sqrt (l k) * (sqrt (l k) * v m k))%R with (v i k * (sqrt (l k) * sqrt (l k)) * v m k)%R by ring.
    rewrite H. reflexivity.
Qed.
(** a fixed vector of the matrix is a fixed vector of its root *)
Lemma root_fixed c : (forall i, In i I -> rtot I (fun j => A i j * c j)%R = c i) -> forall i, In i I -> rtot I (fun j => root i j * c j)%R = c i.
Proof.
  intros HF. set (u := fun i => (rtot I (fun j => root i j * c j) - c i)%R).
  assert (E : forall i, In i I -> (rtot I (fun j => root i j * u j) + u i = 0)%R).
  { intros i Hi. unfold u. rewrite (rtot_ext _ _ (fun j => root i j * rtot I (fun m => root j m * c m) - root i j * c j)%R) by (intros; ring).
    rewrite rtot_sub.
    assert (rtot I (fun j => root i j * rtot I (fun m => root j m * c m)) = c i)%R as ->; [|ring].
    transitivity (rtot I (fun m => rtot I (fun j => root i j * root j m) * c m))%R.
    - transitivity (rtot I (fun j => rtot I (fun m => root i j * root j m * c m)))%R.
      + apply rtot_ext. intros j Hj. rewrite <- rtot_mul_l. apply rtot_ext. intros. ring.
      + rewrite rtot_swap. apply rtot_ext. intros m Hm. rewrite rtot_mul_r. reflexivity.
    - rewrite <- (HF i Hi). apply rtot_ext. intros m Hm. rewrite root_sq by assumption. reflexivity. }
  assert (Z : rtot I (fun i => u i * u i)%R = 0%R).
  { pose proof (root_psd u) as P. pose proof (rtot_nonneg I (fun i => u i * u i)%R ltac:(intros; nra)) as Q.
    assert (rtot I (fun i => u i * rtot I (fun j => root i j * u j)) + rtot I (fun i => u i * u i) = 0)%R; [|lra].
    rewrite <- rtot_add. transitivity (rtot I (fun _ => 0)%R); [|clear; induction I as [|k U IH]; [reflexivity|rewrite rtot_cons, IH; ring]].
    apply rtot_ext. intros i Hi. rewrite <- Rmult_plus_distr_l, E by exact Hi. ring. }
  intros i Hi. pose proof (rtot_zero_each I (fun i => u i * u i)%R Z ltac:(intros; nra) i Hi) as H. cbn beta in H. unfold u in *. nra.
Qed.
End Root.
