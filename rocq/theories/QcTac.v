(** Rational arithmetic on canonical rationals [Qc]: boolean comparisons with
    reflection, and a tactic [qlra] that moves Qc goals to Q and calls lra/nra. *)
From Coq Require Import ZArith QArith Qcanon Qround Qabs Lqa Lia Bool.
Open Scope Qc_scope.
Notation "x <= y < z" := (x <= y /\ y < z) : Qc_scope.
Notation "x < y <= z" := (x < y /\ y <= z) : Qc_scope.

Lemma this_add (x y : Qc) : (this (x + y) == this x + this y)%Q.
Proof. apply Qred_correct. Qed.
Lemma this_mul (x y : Qc) : (this (x * y) == this x * this y)%Q.
Proof. apply Qred_correct. Qed.
Lemma this_opp (x : Qc) : (this (- x) == - this x)%Q.
Proof. apply Qred_correct. Qed.
Lemma this_sub (x y : Qc) : (this (x - y) == this x - this y)%Q.
Proof. unfold Qcminus. rewrite this_add, this_opp. reflexivity. Qed.
Lemma this_inv (x : Qc) : (this (/ x) == / this x)%Q.
Proof. apply Qred_correct. Qed.
Lemma this_div (x y : Qc) : (this (x / y) == this x / this y)%Q.
Proof. unfold Qcdiv. rewrite this_mul, this_inv. reflexivity. Qed.
Lemma this_Q2Qc (q : Q) : (this (Q2Qc q) == q)%Q.
Proof. apply Qred_correct. Qed.
Lemma Qc_eq_iff (x y : Qc) : x = y <-> (this x == this y)%Q.
Proof. split; [intros ->; reflexivity | apply Qc_is_canon]. Qed.
Lemma Qc_neq_iff (x y : Qc) : x <> y <-> ~ (this x == this y)%Q.
Proof. rewrite Qc_eq_iff. tauto. Qed.

Definition qz (n : Z) : Qc := Q2Qc (inject_Z n).
Lemma this_qz n : (this (qz n) == inject_Z n)%Q.
Proof. apply this_Q2Qc. Qed.

Definition qleb (x y : Qc) : bool := Qle_bool (this x) (this y).
Definition qltb (x y : Qc) : bool := negb (Qle_bool (this y) (this x)).
Definition qeqb (x y : Qc) : bool := Qeq_bool (this x) (this y).

Lemma qleb_spec x y : reflect (x <= y) (qleb x y).
Proof.
  unfold qleb. destruct (Qle_bool x y) eqn:E; constructor.
  - apply Qle_bool_iff; exact E.
  - intro H. apply Qle_bool_iff in H. congruence.
Qed.
Lemma qltb_spec x y : reflect (x < y) (qltb x y).
Proof.
  unfold qltb. destruct (Qle_bool y x) eqn:E; constructor.
  - apply Qle_bool_iff in E. unfold Qclt. apply Qle_not_lt; exact E.
  - unfold Qclt. apply Qnot_le_lt. intro H. apply Qle_bool_iff in H. congruence.
Qed.
Lemma qeqb_spec x y : reflect (x = y) (qeqb x y).
Proof.
  unfold qeqb. destruct (Qeq_bool x y) eqn:E; constructor.
  - apply Qc_is_canon. apply Qeq_bool_iff; exact E.
  - intro H. subst. rewrite (proj2 (Qeq_bool_iff y y)) in E by reflexivity. discriminate.
Qed.

Ltac qunfold :=
  repeat match goal with
  | H : _ |- _ => progress (unfold Qcle, Qclt in H)
  | H : @eq Qc _ _ |- _ => rewrite Qc_eq_iff in H
  | H : ~ @eq Qc _ _ |- _ => rewrite Qc_neq_iff in H
  | H : _ = _ -> False |- _ => change (~ (_ = _)) in H; rewrite Qc_neq_iff in H
  end;
  unfold Qcle, Qclt in *;
  repeat match goal with
  | H : ~ (_ <= _)%Q |- _ => apply Qnot_le_lt in H
  | H : ~ (_ < _)%Q |- _ => apply Qnot_lt_le in H
  end;
  lazymatch goal with
  | |- @eq Qc _ _ => apply Qc_eq_iff
  | |- ~ @eq Qc _ _ => apply Qc_neq_iff
  | |- _ => idtac
  end.
Ltac qpush :=
  repeat first
    [ setoid_rewrite this_add | setoid_rewrite this_sub | setoid_rewrite this_opp
    | setoid_rewrite this_mul | setoid_rewrite this_Q2Qc | setoid_rewrite this_qz ];
  repeat match goal with
  | H : context [this (_ + _)] |- _ => rewrite this_add in H
  | H : context [this (_ - _)] |- _ => rewrite this_sub in H
  | H : context [this (_ * _)] |- _ => rewrite this_mul in H
  | H : context [this (- _)] |- _ => rewrite this_opp in H
  | H : context [this (qz _)] |- _ => rewrite this_qz in H
  | H : context [this (Q2Qc _)] |- _ => rewrite this_Q2Qc in H
  end.
Ltac qlit :=
  repeat match goal with
  | |- context [inject_Z ?n] =>
      lazymatch isZcst n with true => let v := eval cbv in (inject_Z n) in change (inject_Z n) with v end
  | H : context [inject_Z ?n] |- _ =>
      lazymatch isZcst n with true => let v := eval cbv in (inject_Z n) in change (inject_Z n) with v in H end
  end.
Ltac qlra := qunfold; qpush; qlit; lra.
Ltac qnra := qunfold; qpush; qlit; nra.

(* case analysis on a boolean comparison *)
Ltac qcase :=
  match goal with
  | |- context [qleb ?x ?y] => destruct (qleb_spec x y)
  | |- context [qltb ?x ?y] => destruct (qltb_spec x y)
  | |- context [qeqb ?x ?y] => destruct (qeqb_spec x y)
  | H : context [qleb ?x ?y] |- _ => destruct (qleb_spec x y)
  | H : context [qltb ?x ?y] |- _ => destruct (qltb_spec x y)
  | H : context [qeqb ?x ?y] |- _ => destruct (qeqb_spec x y)
  end.

Lemma qz_add a b : qz (a + b) = qz a + qz b.
Proof. apply Qc_eq_iff. rewrite this_add, !this_qz, inject_Z_plus. reflexivity. Qed.
Lemma qz_sub a b : qz (a - b) = qz a - qz b.
Proof. apply Qc_eq_iff. rewrite this_sub, !this_qz. unfold Z.sub. rewrite inject_Z_plus, inject_Z_opp. reflexivity. Qed.
Lemma qz_mul a b : qz (a * b) = qz a * qz b.
Proof. apply Qc_eq_iff. rewrite this_mul, !this_qz, inject_Z_mult. reflexivity. Qed.
Lemma qz_le a b : qz a <= qz b <-> (a <= b)%Z.
Proof. unfold Qcle. rewrite !this_qz. rewrite <- Zle_Qle. reflexivity. Qed.
Lemma qz_lt a b : qz a < qz b <-> (a < b)%Z.
Proof. unfold Qclt. rewrite !this_qz. rewrite <- Zlt_Qlt. reflexivity. Qed.
Lemma qz_inj a b : qz a = qz b -> a = b.
Proof. intros H. assert (qz a <= qz b /\ qz b <= qz a) as [A B]. { rewrite H; split; apply Qcle_refl. }
  apply (proj1 (qz_le _ _)) in A. apply (proj1 (qz_le _ _)) in B. lia. Qed.
Lemma qz_0 : qz 0 = 0. Proof. reflexivity. Qed.
Lemma qz_1 : qz 1 = 1. Proof. reflexivity. Qed.
