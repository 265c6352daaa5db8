(** Transforms. *)
From Coq Require Import Reals Lra Lia.
From Verif Require Import RBase RPow P_RBase M_Trans S_Trans.
Local Open Scope R_scope.

Lemma Rpower_pos x y : 0 < Rpower x y. Proof. apply exp_pos. Qed.
Lemma rpow_pos x y : 0 < x -> rpow (RF x) (RF y) = RF (Rpower x y).
Proof.
  intros H. unfold rpow. destruct (Req_dec y 0) as [-> | Hy].
  - rewrite Reqb_t by reflexivity. rewrite Rpower_O by exact H. reflexivity.
  - rewrite Reqb_f by exact Hy. rewrite Rltb_t by exact H. reflexivity.
Qed.
Lemma rpow_0 y : 0 < y -> rpow (RF 0) (RF y) = RF 0.
Proof. intros H. unfold rpow. rewrite Reqb_f by lra. rewrite Rltb_f by lra. rewrite Reqb_t by reflexivity. rewrite Rltb_f by lra. reflexivity. Qed.
Lemma rpow_0_neg y : y < 0 -> rpow (RF 0) (RF y) = RPInf.
Proof. intros H. unfold rpow. rewrite Reqb_f by lra. rewrite Rltb_f by lra. rewrite Reqb_t by reflexivity. rewrite Rltb_t by lra. reflexivity. Qed.
Lemma Rpower_inv x y : 0 < x -> y <> 0 -> Rpower (Rpower x y) (1 / y) = x.
Proof. intros Hx Hy. rewrite Rpower_mult. replace (y * (1 / y)) with 1 by (field; exact Hy). apply Rpower_1. exact Hx. Qed.
Lemma Rpower_inv' x y : 0 < x -> y <> 0 -> Rpower (Rpower x (1 / y)) y = x.
Proof. intros Hx Hy. rewrite Rpower_mult. replace (1 / y * y) with 1 by (field; exact Hy). apply Rpower_1. exact Hx. Qed.
Lemma Rpower_incr x x' y : 0 < x -> x < x' -> 0 < y -> Rpower x y < Rpower x' y.
Proof. intros. apply Rlt_Rpower_l; lra. Qed.

Lemma Rpower_gt1 x y : 1 < x -> 0 < y -> 1 < Rpower x y.
Proof. intros Hx Hy. pose proof (Rpower_lt x 0 y Hx Hy) as H. rewrite Rpower_O in H by lra. exact H. Qed.

(** ** Log and Identity *)
Lemma log_ok : transform_on (fun x => 0 < x) log_forward log_backward.
Proof.
  split; [|split; [|split]].
  - intros x Hx. exists (ln x). unfold log_forward, log_backward. cbn [r_valid]. rewrite rlog_RF by exact Hx. cbn [rexp]. rewrite exp_ln by exact Hx. auto.
  - intros x x' Hx Hx' H. exists (ln x), (ln x'). unfold log_forward. cbn [r_valid]. rewrite !rlog_RF by assumption. split; [auto|]. split; [auto|]. apply ln_increasing; lra.
  - intros [| | |x] H; try reflexivity. discriminate.
  - intros [| | |x] H; try reflexivity. discriminate.
Qed.
Lemma identity_ok : transform_on (fun _ => True) identity_forward identity_backward.
Proof.
  split; [|split; [|split]].
  - intros x _. exists x. auto.
  - intros x x' _ _ H. exists x, x'. auto.
  - intros v H. exact H.
  - intros v H. exact H.
Qed.

(** ** Box-Cox *)
Definition bc (l x : R) : R := ((if Rlt_dec 0 x then Rpower x l else 0) - 1) / l.
Lemma boxcox_forward_pos l x : 0 < l -> 0 <= x -> boxcox_forward (RF l) (RF x) = RF (bc l x).
Proof.
  intros Hl Hx. unfold boxcox_forward, bc, rz. cbn [r_valid negb]. cbn [reqb]. rewrite Reqb_f by lra. destruct (Rlt_dec 0 x) as [H|H].
  - rewrite rleb_f by exact H. rewrite rpow_pos by exact H. unfold rsub. cbn [rneg radd]. rewrite rdiv_RF by lra. reflexivity.
  - rewrite rleb_t by lra. rewrite rpow_0 by exact Hl. unfold rsub. cbn [rneg radd]. rewrite rdiv_RF by lra. reflexivity.
Qed.
Lemma bc_low l x : 0 < l -> 0 <= x -> - 1 / l <= bc l x /\ (0 < x -> - 1 / l < bc l x) /\ (x = 0 -> bc l x = - 1 / l).
Proof.
  intros Hl Hx. unfold bc. assert (I : 0 < / l) by (apply Rinv_0_lt_compat; exact Hl). unfold Rdiv. destruct (Rlt_dec 0 x) as [H|H].
  - pose proof (Rpower_pos x l). repeat split; intros; nra.
  - repeat split; intros; try lra. 
Qed.
Lemma boxcox_backward_pos l v : 0 < l -> - 1 / l <= v -> 
  boxcox_backward (RF l) (RF v) = RF (if Rlt_dec (- 1 / l) v then Rpower (1 + l * v) (1 / l) else 0).
Proof.
  intros Hl Hv. unfold boxcox_backward, rz. cbn [r_valid negb]. cbn [reqb]. rewrite Reqb_f by lra. rewrite rdiv_RF by lra. cbn [rltb]. rewrite Rltb_f by lra.
  cbn [rmul radd]. rewrite rdiv_RF by lra. assert (E : l * (- 1 / l) = - 1) by (field; lra). destruct (Rlt_dec (- 1 / l) v) as [H|H].
  - rewrite rpow_pos by nra. rewrite rleb_f by apply Rpower_pos. reflexivity.
  - assert (v = - 1 / l) as -> by lra. rewrite E. replace (1 + - 1) with 0 by ring. rewrite rpow_0 by (apply Rdiv_lt_0_compat; lra). rewrite rleb_t by lra. reflexivity.
Qed.
Lemma boxcox_pos_ok l : 0 < l -> transform_on (fun x => 0 <= x) (boxcox_forward (RF l)) (boxcox_backward (RF l)).
Proof.
  intros Hl. split; [|split; [|split]].
  - intros x Hx. exists (bc l x). split; [apply boxcox_forward_pos; auto|]. pose proof (bc_low l x Hl Hx) as (H1 & H2 & H3).
    rewrite boxcox_backward_pos by auto. destruct (Rlt_dec (- 1 / l) (bc l x)) as [H|H].
    + unfold bc. destruct (Rlt_dec 0 x) as [P|P].
      * replace (1 + l * ((Rpower x l - 1) / l)) with (Rpower x l) by (field; lra). rewrite Rpower_inv by lra. reflexivity.
      * exfalso. assert (x = 0) by lra. specialize (H3 H0). lra.
    + f_equal. destruct (Rle_lt_or_eq_dec _ _ Hx) as [P|P]; [|exact P]. specialize (H2 P). lra.
  - intros x x' Hx Hx' H. exists (bc l x), (bc l x'). split; [apply boxcox_forward_pos; auto|]. split; [apply boxcox_forward_pos; auto|].
    pose proof (bc_low l x Hl Hx) as (_ & _ & H3). pose proof (bc_low l x' Hl Hx') as (_ & H2 & _).
    destruct (Rle_lt_or_eq_dec _ _ Hx) as [P|P]; [|rewrite H3 by auto; apply H2; lra].
    unfold bc. destruct (Rlt_dec 0 x); [|lra]. destruct (Rlt_dec 0 x'); [|lra]. apply Rmult_lt_compat_r; [apply Rinv_0_lt_compat; lra|].
    pose proof (Rpower_incr x x' l P H Hl). lra.
  - intros [| | |x] E; try reflexivity. discriminate.
  - intros [| | |x] E; try reflexivity. discriminate.
Qed.
Lemma boxcox_zero_ok : transform_on (fun x => 0 < x) (boxcox_forward (RF 0)) (boxcox_backward (RF 0)).
Proof.
  assert (F : forall x, 0 < x -> boxcox_forward (RF 0) (RF x) = RF (ln x)).
  { intros x Hx. unfold boxcox_forward, rz. cbn [r_valid negb]. rewrite rleb_f by exact Hx. cbn [reqb]. rewrite Reqb_t by reflexivity. apply rlog_RF. exact Hx. }
  split; [|split; [|split]].
  - intros x Hx. exists (ln x). split; [apply F; auto|]. unfold boxcox_backward, rz. cbn [r_valid negb reqb]. rewrite Reqb_t by reflexivity. cbn [rexp].
    rewrite rleb_f by apply exp_pos. rewrite exp_ln by exact Hx. reflexivity.
  - intros x x' Hx Hx' H. exists (ln x), (ln x'). split; [apply F; auto|]. split; [apply F; auto|]. apply ln_increasing; lra.
  - intros [| | |x] E; try reflexivity. discriminate.
  - intros [| | |x] E; try reflexivity. discriminate.
Qed.
(** with a negative parameter the way back always gives infinity *)
Lemma boxcox_neg l x : l < 0 -> 0 < x -> exists y, boxcox_forward (RF l) (RF x) = RF y /\ boxcox_backward (RF l) (RF y) = RPInf.
Proof.
  intros Hl Hx. exists ((Rpower x l - 1) / l). split.
  - unfold boxcox_forward, rz. cbn [r_valid negb]. rewrite rleb_f by exact Hx. cbn [reqb]. rewrite Reqb_f by lra. rewrite rpow_pos by exact Hx. unfold rsub. cbn [rneg radd].
    rewrite rdiv_RF by lra. reflexivity.
  - unfold boxcox_backward, rz. cbn [r_valid negb reqb]. rewrite Reqb_f by lra. rewrite rdiv_RF by lra. cbn [rltb].
    assert (I : / l < 0) by (apply Rinv_lt_0_compat; exact Hl). pose proof (Rpower_pos x l). rewrite Rltb_t by (unfold Rdiv; nra).
    cbn [rmul radd]. replace (1 + l * (- 1 / l)) with 0 by (field; lra). rewrite rdiv_RF by lra. rewrite rpow_0_neg by (unfold Rdiv; lra). reflexivity.
Qed.

(** ** Started Box-Cox *)
Lemma mk_started_ok t s : 0 < t -> 0 < s -> mk_started (RF t) (RF s) = Ok {| st_threshold := RF t; st_scaling := RF s |}.
Proof. intros. unfold mk_started, rz. cbn [r_valid negb orb]. rewrite !rleb_f by assumption. reflexivity. Qed.
Lemma mk_started_inv t s S : mk_started t s = Ok S -> exists t' s', t = RF t' /\ s = RF s' /\ 0 < t' /\ 0 < s' /\ S = {| st_threshold := RF t'; st_scaling := RF s' |}.
Proof.
  unfold mk_started, rz. destruct t as [| | |t']; cbn [r_valid negb orb]; try discriminate. destruct (rleb (RF t') (RF 0)) eqn:E1; [discriminate|].
  destruct s as [| | |s']; cbn [r_valid negb orb]; try discriminate. destruct (rleb (RF s') (RF 0)) eqn:E2; [discriminate|].
  intros H. injection H as <-. exists t', s'. repeat split; auto; apply Rnot_le_lt; intros C; [rewrite rleb_t in E1 by exact C|rewrite rleb_t in E2 by exact C]; discriminate.
Qed.
Definition sb (t s x : R) : R := if Rle_dec x s then x else s * (1 + (Rpower (x / s) t - 1) / t).
Section Started.
Variables (t s : R).
Hypotheses (Ht : 0 < t) (Hs : 0 < s).
Let S := {| st_threshold := RF t; st_scaling := RF s |}.
Lemma started_forward_eq x : 0 <= x -> started_forward S (RF x) = RF (sb t s x).
Proof.
  intros Hx. unfold started_forward, rz. cbn [r_valid negb orb st_threshold st_scaling S]. rewrite rleb_f by exact Ht. cbn [rltb]. rewrite Rltb_f by exact Hx.
  unfold sb. destruct (Rle_dec x s) as [H|H].
  - rewrite rleb_t by exact H. reflexivity.
  - rewrite rleb_f by lra. rewrite rdiv_RF by lra. rewrite rpow_pos by (apply Rdiv_lt_0_compat; lra). unfold rsub. cbn [rneg radd]. rewrite rdiv_RF by lra. reflexivity.
Qed.
Lemma sb_big x : s < x -> s < sb t s x /\ sb t s x = s * (1 + (Rpower (x / s) t - 1) / t).
Proof.
  intros H. unfold sb. destruct (Rle_dec x s); [lra|]. split; [|reflexivity].
  assert (1 < Rpower (x / s) t). { rewrite <- (Rpower_O (x / s)) by (apply Rdiv_lt_0_compat; lra). apply Rpower_lt; [|exact Ht].
    apply (Rmult_lt_reg_r s); [exact Hs|]. unfold Rdiv. rewrite Rmult_assoc, Rinv_l by lra. lra. }
  assert (0 < (Rpower (x / s) t - 1) / t) by (apply Rdiv_lt_0_compat; lra). nra.
Qed.
Lemma started_backward_eq v : 0 <= v -> started_backward S (RF v) = RF (if Rle_dec v s then v else s * Rpower (1 + t / s * (v - s)) (1 / t)).
Proof.
  intros Hv. unfold started_backward, rz. cbn [r_valid negb orb st_threshold st_scaling S]. rewrite rleb_f by exact Ht. destruct (Rle_dec v s) as [H|H].
  - rewrite rleb_t by exact H. cbn [rltb]. rewrite Rltb_f by exact Hv. reflexivity.
  - rewrite rleb_f by lra. rewrite !rdiv_RF by lra. unfold rsub. cbn [rneg radd rmul].
    assert (0 < t / s) by (apply Rdiv_lt_0_compat; lra). rewrite rpow_pos by (unfold Rminus in *; nra). cbn [rmul rltb]. pose proof (Rpower_pos (1 + t / s * (v + - s)) (1 / t)).
    rewrite Rltb_f by nra. reflexivity.
Qed.
Lemma started_ok : transform_on (fun x => 0 <= x) (started_forward S) (started_backward S).
Proof.
  split; [|split; [|split]].
  - intros x Hx. exists (sb t s x). split; [apply started_forward_eq; auto|]. destruct (Rle_dec x s) as [H|H].
    + assert (E : sb t s x = x) by (unfold sb; destruct (Rle_dec x s); [reflexivity|lra]). rewrite E, started_backward_eq by exact Hx. destruct (Rle_dec x s); [reflexivity|lra].
    + destruct (sb_big x) as [L E]; [lra|]. rewrite started_backward_eq by lra. destruct (Rle_dec (sb t s x) s); [lra|]. f_equal. rewrite E.
      replace (1 + t / s * (s * (1 + (Rpower (x / s) t - 1) / t) - s)) with (Rpower (x / s) t) by (field; lra).
      rewrite Rpower_inv by (try lra; apply Rdiv_lt_0_compat; lra). field. lra.
  - intros x x' Hx Hx' H. exists (sb t s x), (sb t s x'). split; [apply started_forward_eq; auto|]. split; [apply started_forward_eq; auto|].
    destruct (Rle_dec x' s) as [L'|L'].
    + unfold sb. destruct (Rle_dec x s); [|lra]. destruct (Rle_dec x' s); [lra|lra].
    + destruct (sb_big x') as [B E]; [lra|]. destruct (Rle_dec x s) as [L|L].
      * unfold sb at 1. destruct (Rle_dec x s); lra.
      * destruct (sb_big x) as [B1 E1]; [lra|]. rewrite E, E1. assert (x / s < x' / s) by (apply Rmult_lt_compat_r; [apply Rinv_0_lt_compat|]; lra).
        assert (Rpower (x / s) t < Rpower (x' / s) t) by (apply Rpower_incr; auto; apply Rdiv_lt_0_compat; lra).
        assert ((Rpower (x / s) t - 1) / t < (Rpower (x' / s) t - 1) / t) by (apply Rmult_lt_compat_r; [apply Rinv_0_lt_compat|]; lra). nra.
  - intros [| | |x] E; try reflexivity. discriminate.
  - intros [| | |x] E; try reflexivity. discriminate.
Qed.
(** the other way round *)
Lemma started_onto y : 0 <= y -> exists x, started_backward S (RF y) = RF x /\ 0 <= x /\ started_forward S (RF x) = RF y.
Proof.
  intros Hy. rewrite started_backward_eq by exact Hy. eexists. split; [reflexivity|]. destruct (Rle_dec y s) as [H|H].
  - split; [exact Hy|]. rewrite started_forward_eq by exact Hy. unfold sb. destruct (Rle_dec y s); [reflexivity|lra].
  - assert (0 < t / s) by (apply Rdiv_lt_0_compat; lra). assert (B : 1 < 1 + t / s * (y - s)) by nra. pose proof (Rpower_pos (1 + t / s * (y - s)) (1 / t)) as P.
    split; [nra|]. rewrite started_forward_eq by nra. f_equal.
    assert (1 < Rpower (1 + t / s * (y - s)) (1 / t)) by (apply Rpower_gt1; [exact B|apply Rdiv_lt_0_compat; lra]).
    destruct (sb_big (s * Rpower (1 + t / s * (y - s)) (1 / t))) as [_ E]; [nra|]. rewrite E.
    replace (s * Rpower (1 + t / s * (y - s)) (1 / t) / s) with (Rpower (1 + t / s * (y - s)) (1 / t)) by (field; lra).
    rewrite Rpower_inv' by lra. field. lra.
Qed.
Lemma started_negative x y : x < 0 -> started_forward S (RF x) = RF y -> y = 0.
Proof.
  intros Hx. unfold started_forward, rz. cbn [r_valid negb orb st_threshold st_scaling S]. rewrite rleb_f by exact Ht. cbn [rltb]. rewrite Rltb_t by exact Hx.
  rewrite rleb_t by lra. congruence.
Qed.
End Started.
Lemma boxcox_onto l y : 0 < l -> - 1 / l <= y -> exists x, boxcox_backward (RF l) (RF y) = RF x /\ 0 <= x /\ boxcox_forward (RF l) (RF x) = RF y.
Proof.
  intros Hl Hy. rewrite boxcox_backward_pos by auto. eexists. split; [reflexivity|]. destruct (Rlt_dec (- 1 / l) y) as [H|H].
  - pose proof (Rpower_pos (1 + l * y) (1 / l)). split; [lra|]. rewrite boxcox_forward_pos by lra. f_equal. unfold bc. destruct (Rlt_dec 0 (Rpower (1 + l * y) (1 / l))); [|lra].
    assert (E : l * (- 1 / l) = - 1) by (field; lra). rewrite Rpower_inv' by nra. field. lra.
  - split; [lra|]. rewrite boxcox_forward_pos by lra. f_equal. destruct (bc_low l 0 Hl ltac:(lra)) as (_ & _ & E). rewrite E by reflexivity. lra.
Qed.
(** ** Gamma *)
Lemma mk_gamma_ok a b c : 0 < a -> 0 < b -> 0 <= c -> mk_gamma (RF a) (RF b) (RF c) = Ok {| ga_shape := RF a; ga_scale := RF b; ga_tolerance := RF c |}.
Proof. intros. unfold mk_gamma, rz. cbn [r_valid negb orb]. rewrite !rleb_f by assumption. cbn [rltb]. rewrite Rltb_f by assumption. reflexivity. Qed.
Lemma gamma_ok B a b c x : boost_ok B a b -> 0 < x + c -> let g := {| ga_shape := RF a; ga_scale := RF b; ga_tolerance := RF c |} in
  exists y, gamma_forward B g (RF x) = Ok (RF y) /\ gamma_backward B g (RF y) = Ok (RF x) /\
  forall x', x < x' -> exists y', gamma_forward B g (RF x') = Ok (RF y') /\ y < y'.
Proof.
  intros [G1 G2 N1 N2] Hx g. unfold g. destruct (G1 _ Hx) as (p & E1 & P & E2). destruct (N1 _ P) as (z & E3 & E4). exists z.
  unfold gamma_forward, gamma_backward. cbn [r_valid negb ga_shape ga_scale ga_tolerance radd]. rewrite E1. cbn [bind]. rewrite E3, E4. cbn [bind]. rewrite E2. cbn [bind].
  split; [reflexivity|]. split; [unfold rsub; cbn [rneg radd]; do 2 f_equal; ring|]. intros x' H.
  destruct (G1 (x' + c)) as (p' & F1 & P' & F2); [lra|]. destruct (N1 _ P') as (z' & F3 & F4). exists z'. rewrite F1. cbn [bind]. rewrite F3. split; [reflexivity|].
  apply (N2 p p'); auto; [lra|]. split; [|lra]. apply (G2 (x + c) (x' + c)); auto. lra.
Qed.
Lemma boost_ok_B0 a b : 0 < b -> boost_ok B0 a b.
Proof.
  intros Hb. constructor; cbn [B0 gamma_cdf gamma_quantile norm_cdf norm_quantile].
  - intros x Hx. eexists. split; [reflexivity|]. assert (0 < x / b) by (apply Rdiv_lt_0_compat; lra).
    assert (exp (- (x / b)) < 1) by (rewrite <- exp_0; apply exp_increasing; lra). pose proof (exp_pos (- (x / b))). split; [lra|].
    do 2 f_equal. replace (1 - (1 - exp (- (x / b)))) with (exp (- (x / b))) by ring. rewrite ln_exp. field. lra.
  - intros x x' p p' Hx H E E'. injection E as <-. injection E' as <-. assert (x / b < x' / b) by (apply Rmult_lt_compat_r; [apply Rinv_0_lt_compat|]; lra).
    assert (exp (- (x' / b)) < exp (- (x / b))) by (apply exp_increasing; lra). lra.
  - intros p [P1 P2]. eexists. split; [reflexivity|]. assert (1 < / p) by (rewrite <- Rinv_1; apply Rinv_lt_contravar; lra).
    do 2 f_equal. rewrite Ropp_involutive, exp_ln by lra. replace (1 + (/ p - 1)) with (/ p) by ring. apply Rinv_inv.
  - intros p p' z z' P1 [P2 P3] E E'. injection E as <-. injection E' as <-. assert (/ p' < / p) by (apply Rinv_lt_contravar; nra).
    assert (1 < / p') by (rewrite <- Rinv_1; apply Rinv_lt_contravar; lra). assert (ln (/ p' - 1) < ln (/ p - 1)) by (apply ln_increasing; lra). lra.
Qed.

(** ** Statements *)
Lemma c63_all :
  transform_on (fun x => 0 < x) log_forward log_backward /\
  transform_on (fun _ => True) identity_forward identity_backward /\
  (forall l, 0 < l -> transform_on (fun x => 0 <= x) (boxcox_forward (RF l)) (boxcox_backward (RF l))) /\
  transform_on (fun x => 0 < x) (boxcox_forward (RF 0)) (boxcox_backward (RF 0)) /\
  (forall t s, 0 < t -> 0 < s -> exists S, mk_started (RF t) (RF s) = Ok S /\ transform_on (fun x => 0 <= x) (started_forward S) (started_backward S)) /\
  (forall t s, mk_started t s = Throw InvalidArgument \/ exists t' s', t = RF t' /\ s = RF s' /\ 0 < t' /\ 0 < s').
Proof.
  split; [exact log_ok|]. split; [exact identity_ok|]. split; [exact boxcox_pos_ok|]. split; [exact boxcox_zero_ok|]. split.
  - intros t s Ht Hs. eexists. split; [apply mk_started_ok; auto|]. apply started_ok; auto.
  - intros t s. destruct (mk_started t s) as [S|e| |] eqn:E.
    + right. destruct (mk_started_inv _ _ _ E) as (t' & s' & H1 & H2 & H3 & H4 & _). exists t', s'. auto.
    + left. unfold mk_started in E. destruct (negb (r_valid t) || rleb t (rz 0)); [congruence|]. destruct (negb (r_valid s) || rleb s (rz 0)); congruence.
    + unfold mk_started in E. destruct (negb (r_valid t) || rleb t (rz 0)); [congruence|]. destruct (negb (r_valid s) || rleb s (rz 0)); congruence.
    + unfold mk_started in E. destruct (negb (r_valid t) || rleb t (rz 0)); [congruence|]. destruct (negb (r_valid s) || rleb s (rz 0)); congruence.
Qed.
Lemma c64_refuted : exists l x y, l < 0 /\ 0 < x /\ boxcox_forward (RF l) (RF x) = RF y /\ boxcox_backward (RF l) (RF y) <> RF x.
Proof. destruct (boxcox_neg (-1) 2) as (y & H1 & H2); [lra|lra|]. exists (-1), 2, y. split; [lra|]. split; [lra|]. split; [exact H1|]. rewrite H2. discriminate. Qed.
Lemma c85_all :
  redone (fun _ => True) log_forward log_backward /\
  (forall l, 0 < l -> redone (fun y => - 1 / l <= y) (boxcox_forward (RF l)) (boxcox_backward (RF l))) /\
  redone (fun _ => True) (boxcox_forward (RF 0)) (boxcox_backward (RF 0)) /\
  (forall t s, 0 < t -> 0 < s -> exists S, mk_started (RF t) (RF s) = Ok S /\ redone (fun y => 0 <= y) (started_forward S) (started_backward S) /\
     floored (started_forward S) (started_backward S)) /\
  (forall l, floored (boxcox_forward (RF l)) (boxcox_backward (RF l))).
Proof.
  split; [|split; [|split; [|split]]].
  - intros y _. exists (exp y). unfold log_forward, log_backward. cbn [r_valid rexp]. pose proof (exp_pos y). rewrite rlog_RF by auto. rewrite ln_exp. repeat split; auto. lra.
  - intros l Hl y Hy. apply boxcox_onto; auto.
  - intros y _. exists (exp y). pose proof (exp_pos y). unfold boxcox_forward, boxcox_backward, rz. cbn [r_valid negb reqb]. rewrite Reqb_t by reflexivity. cbn [rexp]. rewrite !rleb_f by auto.
    rewrite rlog_RF by auto. rewrite ln_exp. repeat split; auto. lra.
  - intros t s Ht Hs. eexists. split; [apply mk_started_ok; auto|]. split; [intros y Hy; apply started_onto; auto|]. split.
    + intros x Hx. unfold started_forward, rz. cbn [r_valid negb orb st_threshold st_scaling rltb]. rewrite rleb_f by exact Ht. rewrite Rltb_t by exact Hx. rewrite Rltb_f by lra. reflexivity.
    + intros y z. unfold started_backward, rz. cbn [r_valid negb orb st_threshold st_scaling]. rewrite rleb_f by exact Ht.
      match goal with |- (if rltb ?r _ then _ else _) = _ -> _ => generalize r end. intros [| | |q]; cbn [rltb].
      * discriminate.
      * discriminate.
      * intros H. injection H as <-. lra.
      * destruct (Rltb q 0) eqn:E; intros H; injection H as <-; [lra|]. apply Rnot_lt_le. intros C. rewrite Rltb_t in E by exact C. discriminate.
  - intros l. split.
    + intros x Hx. unfold boxcox_forward, rz. cbn [r_valid negb]. rewrite !rleb_t by lra. reflexivity.
    + intros y z. unfold boxcox_backward, rz. cbn [r_valid negb].
      match goal with |- (if rleb ?r _ then _ else _) = _ -> _ => generalize r end. intros [| | |q].
      * cbn. discriminate.
      * cbn. discriminate.
      * cbn. intros H. injection H as <-. lra.
      * destruct (rleb (RF q) (RF 0)) eqn:E; intros H; injection H as <-; [lra|]. apply Rnot_lt_le. intros C. rewrite rleb_t in E by lra. discriminate.
Qed.
Lemma c86_all : forall B a b c, 0 < a -> 0 < b -> 0 <= c -> boost_ok B a b ->
  exists g, mk_gamma (RF a) (RF b) (RF c) = Ok g /\
  (forall x, 0 < x + c -> exists y, gamma_forward B g (RF x) = Ok (RF y) /\ gamma_backward B g (RF y) = Ok (RF x) /\
     forall x', x < x' -> exists y', gamma_forward B g (RF x') = Ok (RF y') /\ y < y') /\
  (forall v, r_valid v = false -> gamma_forward B g v = Ok RMV /\ gamma_backward B g v = Ok RMV).
Proof.
  intros B a b c Ha Hb Hc HB. eexists. split; [apply mk_gamma_ok; auto|]. split; [intros x Hx; apply gamma_ok; auto|].
  intros v H. unfold gamma_forward, gamma_backward. rewrite H. auto.
Qed.
