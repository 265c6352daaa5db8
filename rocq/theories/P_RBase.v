(** Facts about real-valued floats. *)
From Verif Require Import Base RBase.
From Coq Require Import Lra Lia Psatz.

Lemma Rltb_t x y : (x < y)%R -> Rltb x y = true. Proof. unfold Rltb. destruct (Rlt_dec x y); tauto. Qed.
Lemma Rltb_f x y : (y <= x)%R -> Rltb x y = false. Proof. unfold Rltb. destruct (Rlt_dec x y); [lra|auto]. Qed.
Lemma Reqb_t x y : x = y -> Reqb x y = true. Proof. unfold Reqb. destruct (Req_EM_T x y); tauto. Qed.
Lemma Reqb_f x y : x <> y -> Reqb x y = false. Proof. unfold Reqb. destruct (Req_EM_T x y); tauto. Qed.
Lemma Rltb_spec x y : Rltb x y = true <-> (x < y)%R.
Proof. unfold Rltb. destruct (Rlt_dec x y); split; auto; try discriminate; tauto. Qed.
Lemma Reqb_spec x y : Reqb x y = true <-> x = y.
Proof. unfold Reqb. destruct (Req_EM_T x y); split; auto; try discriminate; tauto. Qed.
Lemma rleb_RF x y : rleb (RF x) (RF y) = true <-> (x <= y)%R.
Proof. unfold rleb; cbn. rewrite orb_true_iff, Rltb_spec, Reqb_spec. lra. Qed.
Lemma rleb_t x y : (x <= y)%R -> rleb (RF x) (RF y) = true. Proof. apply rleb_RF. Qed.
Lemma rleb_f x y : (y < x)%R -> rleb (RF x) (RF y) = false.
Proof. intros H. destruct (rleb (RF x) (RF y)) eqn:E; auto. apply rleb_RF in E. lra. Qed.

Lemma rdiv_RF x y : y <> 0%R -> rdiv (RF x) (RF y) = RF (x / y)%R.
Proof. intros H. cbn. rewrite Reqb_f; auto. Qed.
Lemma rsqrt_RF x : (0 <= x)%R -> rsqrt (RF x) = RF (sqrt x).
Proof. intros H. cbn. rewrite Rltb_f; auto. Qed.
Lemma rlog_RF x : (0 < x)%R -> rlog (RF x) = RF (ln x).
Proof. intros H. cbn. rewrite Rltb_t; auto. Qed.

(** rationals as reals *)
Lemma qr_add a b : qr (a + b)%Qc = (qr a + qr b)%R.
Proof. unfold qr. rewrite <- Q2R_plus. apply Qeq_eqR. apply Qred_correct. Qed.
Lemma qr_mul a b : qr (a * b)%Qc = (qr a * qr b)%R.
Proof. unfold qr. rewrite <- Q2R_mult. apply Qeq_eqR. apply Qred_correct. Qed.
Lemma qr_opp a : qr (- a)%Qc = (- qr a)%R.
Proof. unfold qr. rewrite <- Q2R_opp. apply Qeq_eqR. apply Qred_correct. Qed.
Lemma qr_sub a b : qr (a - b)%Qc = (qr a - qr b)%R.
Proof. unfold Qcminus, Rminus. rewrite qr_add, qr_opp. auto. Qed.
Lemma qr_z n : qr (qz n) = IZR n.
Proof. unfold qr, qz. transitivity (Q2R (inject_Z n)). apply Qeq_eqR. apply Qred_correct. unfold Q2R; cbn. field. Qed.
Lemma qr_0 : qr 0%Qc = 0%R. Proof. exact (qr_z 0). Qed.
Lemma qr_1 : qr 1%Qc = 1%R. Proof. exact (qr_z 1). Qed.
Lemma qr_lt a b : (a < b)%Qc -> (qr a < qr b)%R. Proof. intros H. apply Qlt_Rlt. exact H. Qed.
Lemma qr_le a b : (a <= b)%Qc -> (qr a <= qr b)%R. Proof. intros H. apply Qle_Rle. exact H. Qed.
Lemma qr_inj a b : qr a = qr b -> a = b. Proof. intros H. apply Qc_is_canon. apply eqR_Qeq. exact H. Qed.
Lemma qr_q (q : Q) : qr (Q2Qc q) = Q2R q. Proof. apply Qeq_eqR. apply Qred_correct. Qed.
