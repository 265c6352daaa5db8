(** Vocabulary for transforms: a pair of functions on values, forward and backward. *)
From Coq Require Import Reals.
From Verif Require Import RBase M_Trans.
Local Open Scope R_scope.

(** backward undoes forward on the numbers in [D] *)
Definition undone (D : R -> Prop) (f b : rv -> rv) : Prop := forall x, D x -> exists y, f (RF x) = RF y /\ b (RF y) = RF x.
(** forward is strictly increasing on [D] *)
Definition increasing (D : R -> Prop) (f : rv -> rv) : Prop :=
  forall x x', D x -> D x' -> x < x' -> exists y y', f (RF x) = RF y /\ f (RF x') = RF y' /\ y < y'.
(** missing stays missing *)
Definition keeps_missing (f : rv -> rv) : Prop := forall v, r_valid v = false -> r_valid (f v) = false.
Definition transform_on (D : R -> Prop) (f b : rv -> rv) : Prop :=
  undone D f b /\ increasing D f /\ keeps_missing f /\ keeps_missing b.
(** what is assumed of Boost for one pair of parameters: on positive numbers the gamma distribution function is
    strictly increasing with values in (0, 1), the normal quantile function is strictly increasing on (0, 1), and
    the other two functions are their inverses *)
Record boost_ok (B : boost) (shape scale : R) : Prop := {
  bo_gamma : forall x, 0 < x -> exists p, gamma_cdf B (RF shape) (RF scale) (RF x) = Ok (RF p) /\ 0 < p < 1 /\
    gamma_quantile B (RF shape) (RF scale) (RF p) = Ok (RF x);
  bo_gamma_mono : forall x x' p p', 0 < x -> x < x' -> gamma_cdf B (RF shape) (RF scale) (RF x) = Ok (RF p) ->
    gamma_cdf B (RF shape) (RF scale) (RF x') = Ok (RF p') -> p < p';
  bo_norm : forall p, 0 < p < 1 -> exists z, norm_quantile B (RF p) = Ok (RF z) /\ norm_cdf B (RF z) = Ok (RF p);
  bo_norm_mono : forall p p' z z', 0 < p -> p < p' < 1 -> norm_quantile B (RF p) = Ok (RF z) -> norm_quantile B (RF p') = Ok (RF z') -> z < z' }.
(** an instance for examples: an exponential and a logistic distribution *)
Definition B0 : boost := {|
  gamma_cdf := fun _ scale x => match scale, x with RF s, RF t => Ok (RF (1 - exp (- (t / s)))) | _, _ => Throw RuntimeError end;
  gamma_quantile := fun _ scale p => match scale, p with RF s, RF q => Ok (RF (- (s * ln (1 - q)))) | _, _ => Throw RuntimeError end;
  norm_cdf := fun z => match z with RF t => Ok (RF (/ (1 + exp (- t)))) | _ => Throw RuntimeError end;
  norm_quantile := fun p => match p with RF q => Ok (RF (- ln (/ q - 1))) | _ => Throw RuntimeError end |}.
(** forward undoes backward on the numbers in [D], and backward gives non-negative numbers there *)
Definition redone (D : R -> Prop) (f b : rv -> rv) : Prop := forall y, D y -> exists x, b (RF y) = RF x /\ 0 <= x /\ f (RF x) = RF y.
(** negative input counts as zero, negative output does not occur *)
Definition floored (f b : rv -> rv) : Prop := (forall x, x < 0 -> f (RF x) = f (RF 0)) /\ (forall y z, b (RF y) = RF z -> 0 <= z).
