(** The transforms of the client's optimal interpolation: C229. *)
From Coq Require Import Reals Lra.
From Verif Require Import RBase RPow M_Trans S_Trans P_Trans M_COiTr P_COiTr.
Local Open Scope R_scope.

(** C229: the transform and its inverse.  A missing observation becomes one of zero *)
Theorem C229_missing_refuted : exists l v, 0 < l /\ rc_valid (RF (-999)) = false /\ oi_observation true (RF l) (RF (-999)) = Some v /\ v = oi_transform true (RF l) (RF 0).
Proof. exact c229_missing. Qed.
Print Assumptions C229_missing_refuted.
Theorem C229_round_trip_partial :
  (forall l, 0 < l -> undone (fun x => 0 <= x) (oi_transform true (RF l)) (oi_inverse true (RF l)) /\ increasing (fun x => 0 <= x) (oi_transform true (RF l)) /\ redone (fun y => - 1 / l <= y) (oi_transform true (RF l)) (oi_inverse true (RF l))) /\
  undone (fun x => 0 < x) (oi_transform true (RF 0)) (oi_inverse true (RF 0)) /\ increasing (fun x => 0 < x) (oi_transform true (RF 0)) /\
  forall l v, oi_transform false l v = v /\ oi_inverse false l v = v.
Proof. exact c229. Qed.
Print Assumptions C229_round_trip_partial.
Example C229_example : oi_transform true (RF 1) (RF 3) = RF 2 /\ oi_inverse true (RF 1) (RF 2) = RF 3.
Proof.
  assert (E : oi_transform true (RF 1) (RF 3) = RF 2) by (rewrite transform_is, boxcox_forward_pos by lra; f_equal; unfold bc; destruct (Rlt_dec 0 3); [|lra]; rewrite Rpower_1 by lra; field).
  split; [exact E|]. destruct C229_round_trip_partial as [U _]. destruct (U 1 ltac:(lra)) as (U1 & _). destruct (U1 3 ltac:(lra)) as (y & E1 & E2). rewrite E in E1. injection E1 as <-. exact E2.
Qed.
