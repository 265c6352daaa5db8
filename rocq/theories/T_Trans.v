(** Transforms: C63, C64, C85, C86. *)
From Coq Require Import Reals Lra.
From Verif Require Import RBase RPow P_RBase M_Trans S_Trans P_Trans.
Local Open Scope R_scope.

(** C63: backward undoes forward, forward is strictly increasing, missing stays missing *)
Theorem C63_transforms_inverse :
  transform_on (fun x => 0 < x) log_forward log_backward /\
  transform_on (fun _ => True) identity_forward identity_backward /\
  (forall l, 0 < l -> transform_on (fun x => 0 <= x) (boxcox_forward (RF l)) (boxcox_backward (RF l))) /\
  transform_on (fun x => 0 < x) (boxcox_forward (RF 0)) (boxcox_backward (RF 0)) /\
  (forall t s, 0 < t -> 0 < s -> exists S, mk_started (RF t) (RF s) = Ok S /\ transform_on (fun x => 0 <= x) (started_forward S) (started_backward S)) /\
  (forall t s, mk_started t s = Throw InvalidArgument \/ exists t' s', t = RF t' /\ s = RF s' /\ 0 < t' /\ 0 < s').
Proof. exact c63_all. Qed.
Print Assumptions C63_transforms_inverse.
Example C63_example : mk_started (RF 2) (RF 3) = Ok {| st_threshold := RF 2; st_scaling := RF 3 |} /\
  started_forward {| st_threshold := RF 2; st_scaling := RF 3 |} (RF 6) = RF (15 / 2) /\
  started_backward {| st_threshold := RF 2; st_scaling := RF 3 |} (RF (15 / 2)) = RF 6 /\
  boxcox_forward (RF 2) (RF 3) = RF 4 /\ boxcox_backward (RF 2) (RF 4) = RF 3 /\ boxcox_forward (RF 2) RPInf = RNaN.
Proof.
  assert (P2 : forall x, 0 < x -> Rpower x 2 = x * x).
  { intros x H. replace 2 with (INR 2) by (cbn; ring). rewrite Rpower_pow by exact H. cbn. ring. }
  assert (Ph : forall x, 0 < x -> Rpower (x * x) (1 / 2) = x).
  { intros x H. rewrite <- P2 by exact H. apply Rpower_inv; lra. }
  split; [apply mk_started_ok; lra|]. split.
  { rewrite started_forward_eq by lra. f_equal. unfold sb. destruct (Rle_dec 6 3); [lra|]. replace (6 / 3) with 2 by field. rewrite P2 by lra. field. }
  split. { rewrite started_backward_eq by lra. f_equal. destruct (Rle_dec (15 / 2) 3); [lra|]. replace (1 + 2 / 3 * (15 / 2 - 3)) with (2 * 2) by field. rewrite Ph by lra. ring. }
  split. { rewrite boxcox_forward_pos by lra. f_equal. unfold bc. destruct (Rlt_dec 0 3); [|lra]. rewrite P2 by lra. field. }
  split; [|reflexivity]. rewrite boxcox_backward_pos by lra. f_equal. destruct (Rlt_dec (- 1 / 2) 4); [|lra]. replace (1 + 2 * 4) with (3 * 3) by ring. apply Ph. lra.
Qed.

(** C64: BoxCox with a negative parameter.  False; backward after forward gives infinity for every number. *)
Theorem C64_boxcox_negative_refuted : exists l x y, l < 0 /\ 0 < x /\ boxcox_forward (RF l) (RF x) = RF y /\ boxcox_backward (RF l) (RF y) <> RF x.
Proof. exact c64_refuted. Qed.
Print Assumptions C64_boxcox_negative_refuted.
Theorem C64_boxcox_negative_infinite : forall l x, l < 0 -> 0 < x -> exists y, boxcox_forward (RF l) (RF x) = RF y /\ boxcox_backward (RF l) (RF y) = RPInf.
Proof. exact boxcox_neg. Qed.
Print Assumptions C64_boxcox_negative_infinite.
Example C64_example : exists y, boxcox_forward (RF (-1)) (RF 2) = RF y /\ y = 1 / 2.
Proof.
  exists (1 / 2). split; [|reflexivity]. destruct (boxcox_neg (-1) 2) as (y & H & _); [lra|lra|]. unfold boxcox_forward, rz in *. cbn [r_valid negb] in *.
  rewrite rleb_f in * by lra. cbn [reqb] in *. rewrite Reqb_f in * by lra. rewrite rpow_pos in * by lra. unfold rsub. cbn [rneg radd]. rewrite rdiv_RF by lra. f_equal.
  replace (-1) with (- (1)) by ring. rewrite Rpower_Ropp, Rpower_1 by lra. field.
Qed.

(** C85: forward undoes backward on the range; negative amounts count as zero *)
Theorem C85_transforms_onto :
  redone (fun _ => True) log_forward log_backward /\
  (forall l, 0 < l -> redone (fun y => - 1 / l <= y) (boxcox_forward (RF l)) (boxcox_backward (RF l))) /\
  redone (fun _ => True) (boxcox_forward (RF 0)) (boxcox_backward (RF 0)) /\
  (forall t s, 0 < t -> 0 < s -> exists S, mk_started (RF t) (RF s) = Ok S /\ redone (fun y => 0 <= y) (started_forward S) (started_backward S) /\
     floored (started_forward S) (started_backward S)) /\
  (forall l, floored (boxcox_forward (RF l)) (boxcox_backward (RF l))).
Proof. exact c85_all. Qed.
Print Assumptions C85_transforms_onto.
Example C85_example : - 1 / 2 <= 0 /\ boxcox_backward (RF 2) (RF 0) = RF 1 /\ boxcox_forward (RF 2) (RF (-7)) = boxcox_forward (RF 2) (RF 0).
Proof.
  split; [lra|]. split; [|apply c85_all; lra]. rewrite boxcox_backward_pos by lra. f_equal. destruct (Rlt_dec (- 1 / 2) 0); [|lra].
  replace (1 + 2 * 0) with 1 by ring. unfold Rpower. rewrite ln_1, Rmult_0_r. apply exp_0.
Qed.

(** C86: the Gamma transform, given Boost's distribution functions *)
Theorem C86_gamma_inverse : forall B a b c, 0 < a -> 0 < b -> 0 <= c -> boost_ok B a b ->
  exists g, mk_gamma (RF a) (RF b) (RF c) = Ok g /\
  (forall x, 0 < x + c -> exists y, gamma_forward B g (RF x) = Ok (RF y) /\ gamma_backward B g (RF y) = Ok (RF x) /\
     forall x', x < x' -> exists y', gamma_forward B g (RF x') = Ok (RF y') /\ y < y') /\
  (forall v, r_valid v = false -> gamma_forward B g v = Ok RMV /\ gamma_backward B g v = Ok RMV).
Proof. exact c86_all. Qed.
Print Assumptions C86_gamma_inverse.
Example C86_example : boost_ok B0 1 2 /\ mk_gamma (RF 1) (RF 2) (RF 0) = Ok {| ga_shape := RF 1; ga_scale := RF 2; ga_tolerance := RF 0 |}.
Proof. split; [apply boost_ok_B0; lra|apply mk_gamma_ok; lra]. Qed.
