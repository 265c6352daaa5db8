(** C70: a convex cell that is not a parallelogram. *)
From Verif Require Import QcTac Base ListLib M_Geo S_Geo S_Near P_Geo P_Grid M_Near M_Bilin S_Bilin.
From Coq Require Import Znumtheory.
Local Open Scope Qc_scope.
(** a square root that is exact on squares of rationals *)
Definition root (q : Qc) : Qc := Q2Qc (Z.sqrt (Qnum (this q)) # Z.to_pos (Z.sqrt (Zpos (Qden (this q))))).
Definition ER : ext := {| ext_sqrt := root; ext_rand := 0 |}.
Lemma exact_ER : exact_sqrt ER.
Proof.
  intros x Hx. cbn. unfold root. destruct x as [[n d] C]. cbn [this] in *.
  assert (Hn : (0 <= n)%Z). { unfold Qcle in Hx. cbn in Hx. unfold Qle in Hx. cbn in Hx. lia. }
  assert (G1 : Z.gcd n (Zpos d) = 1%Z).
  { exact (proj1 (Qred_iff (n # d)) C). }
  assert (R : this (Qcmult (Qcmake (n # d) C) (Qcmake (n # d) C)) = (n * n # d * d)%Q).
  { change (Qred (n * n # d * d) = (n * n # d * d)%Q). apply Qred_identity. cbn [Qnum Qden Qmult]. apply Zgcd_1_rel_prime. apply Zgcd_1_rel_prime in G1.
    rewrite Pos2Z.inj_mul. apply rel_prime_mult; apply rel_prime_sym; apply rel_prime_mult; apply rel_prime_sym; exact G1. }
  rewrite R. cbn [Qnum Qden]. rewrite Pos2Z.inj_mul, !Z.sqrt_square by lia. cbn [Z.to_pos].
  apply Qc_is_canon. exact (Qred_correct (n # d)).
Qed.
(** a trapezoid whose rows have constant latitude, latitude decreasing with the row *)
Notation tl := [[qz 1; qz 1]; [qz 0; qz 0]].
Notation to := [[qz 0; qz 2]; [qz 0; qz 4]].
Notation half := (Q2Qc (1#2)).
Notation third := (Q2Qc (1#3)).
Lemma c70_refuted : exists E g P v, exact_sqrt E /\ geo_ok G0 /\ is_grid G0 Cartesian 2 2 tl to g /\ is_points G0 Cartesian [half] [1%Qc] P /\
  rect 2 2 v /\ Forall (Forall (fun w => exists q, w = Fin q)) v /\
  convex_cell tl to 0 0 /\ unit_range third /\ unit_range half /\ blend_position tl to 0 0 half 1%Qc third half /\
  bilinear_gp2 E G0 g P v = Abort.
Proof.
  exists ER. eexists. eexists. exists [[fz 1; fz 2]; [fz 3; fz 4]]. split; [exact exact_ER|]. split; [exact geo_ok_G0|].
  split. { split; [lia|]. split; [lia|]. split; [split; [reflexivity|cbn; intuition (subst; reflexivity)]|]. split; [split; [reflexivity|cbn; intuition (subst; reflexivity)]|].
    exists [], []. split; [auto|]. split; [auto|]. cbn. reflexivity. }
  split. { exists [], []. cbn. reflexivity. }
  split; [split; [reflexivity|cbn; intuition (subst; reflexivity)]|].
  split. { repeat constructor; eexists; reflexivity. }
  split. { unfold convex_cell. exists (qz 1), (qz 0), (qz 1), (qz 0), (qz 0), (qz 0), (qz 2), (qz 4).
    split; [repeat split; reflexivity|]. split; [repeat split; reflexivity|]. left. repeat constructor. }
  split; [split; vm_compute; discriminate|]. split; [split; vm_compute; discriminate|].
  split. { exists (qz 1), (qz 0), (qz 1), (qz 0), (qz 0), (qz 0), (qz 2), (qz 4). split; [repeat split; reflexivity|]. split; [repeat split; reflexivity|].
    split; vcalc. }
  vm_compute. reflexivity.
Qed.
