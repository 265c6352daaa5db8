(** Proofs about the transforms of the client's optimal interpolation. *)
From Coq Require Import Reals Lra.
From Verif Require Import RBase RPow M_Trans S_Trans P_Trans P_RBase M_COiTr.
Local Open Scope R_scope.

Lemma transform_is l x : oi_transform true l (RF x) = boxcox_forward l (RF x).
Proof. reflexivity. Qed.
Lemma inverse_is l x : oi_inverse true l (RF x) = boxcox_backward l (RF x).
Proof. reflexivity. Qed.
Lemma c229 :
  (forall l, 0 < l -> undone (fun x => 0 <= x) (oi_transform true (RF l)) (oi_inverse true (RF l)) /\ increasing (fun x => 0 <= x) (oi_transform true (RF l)) /\ redone (fun y => - 1 / l <= y) (oi_transform true (RF l)) (oi_inverse true (RF l))) /\
  undone (fun x => 0 < x) (oi_transform true (RF 0)) (oi_inverse true (RF 0)) /\ increasing (fun x => 0 < x) (oi_transform true (RF 0)) /\
  forall l v, oi_transform false l v = v /\ oi_inverse false l v = v.
Proof.
  split; [|split; [|split]].
  - intros l L. destruct (boxcox_pos_ok l L) as (U & M & _ & _). split; [|split].
    + intros x Hx. destruct (U x Hx) as (y & E1 & E2). exists y. auto.
    + intros x x' Hx Hx' H. destruct (M x x' Hx Hx' H) as (y & y' & E1 & E2 & E3). exists y, y'. auto.
    + intros y Hy. destruct (boxcox_onto l y L Hy) as (x & E1 & E2 & E3). exists x. auto.
  - destruct boxcox_zero_ok as (U & _). intros x Hx. destruct (U x Hx) as (y & E1 & E2). exists y. auto.
  - destruct boxcox_zero_ok as (_ & M & _). intros x x' Hx Hx' H. destruct (M x x' Hx Hx' H) as (y & y' & E1 & E2 & E3). exists y, y'. auto.
  - intros. split; reflexivity.
Qed.
Lemma observation_zero l : 0 < l -> l <> / 999 -> oi_observation true (RF l) (RF (-999)) = Some (RF (- 1 / l)) /\ oi_inverse true (RF l) (RF (- 1 / l)) = RF 0.
Proof.
  intros L NL. assert (E : oi_transform true (RF l) (RF (-999)) = RF (- 1 / l)).
  { transitivity (oi_transform true (RF l) (RF 0)).
    - unfold oi_transform. cbn [negb]. unfold rz. rewrite !rleb_t by lra. reflexivity.
    - rewrite transform_is, boxcox_forward_pos by lra. f_equal. unfold bc. destruct (Rlt_dec 0 0); [lra|]. lra. }
  unfold oi_observation. rewrite E. split.
  - cbn [rc_valid]. unfold Reqb. destruct (Req_EM_T (-1 / l) (-999)) as [K|]; [|reflexivity]. exfalso. apply NL. apply (Rmult_eq_reg_r l); [|lra]. apply (f_equal (fun z => z * l)) in K. unfold Rdiv in K. rewrite Rmult_assoc, Rinv_l in K by lra. lra.
  - rewrite inverse_is, boxcox_backward_pos by lra. destruct (Rlt_dec (- 1 / l) (- 1 / l)); [lra|reflexivity].
Qed.
(** a missing observation counts as zero *)
Lemma c229_missing : exists l v, 0 < l /\ rc_valid (RF (-999)) = false /\ oi_observation true (RF l) (RF (-999)) = Some v /\ v = oi_transform true (RF l) (RF 0).
Proof.
  exists (/ 2), (RF (-1 / (/ 2))). split; [lra|]. split; [cbn; unfold Reqb; destruct (Req_EM_T (-999) (-999)); [reflexivity|lra]|]. split; [apply observation_zero; lra|].
  rewrite transform_is, boxcox_forward_pos by lra. f_equal. unfold bc. destruct (Rlt_dec 0 0); lra.
Qed.
