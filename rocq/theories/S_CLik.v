(** Specification of the likelihoods that are maximised in training. *)
From Verif Require Import Base M_CUtil S_CUtil S_CDist.
Local Open Scope Z_scope.

Definition triple (d : Qc * Qc * Qc) : val * val * val := let '(o, m, s) := d in (Fin o, Fin m, Fin s).
Fixpoint total_of (l : list Qc) : Qc := match l with [] => 0%Qc | a :: t => (a + total_of t)%Qc end.
(** the logarithm of positive numbers *)
Definition on_positive (f : val -> val) (g : Qc -> Qc) : Prop := forall x, (0 < x)%Qc -> f (Fin x) = Fin (g x).
Definition never_negative (f : Qc -> Qc -> Qc -> Qc) : Prop := forall x y z, (0 <= f x y z)%Qc.
(** a density of 0 counts as 0.00001 *)
Definition at_least (p : Qc) : Qc := if Qc_eq_dec p 0 then Q2Qc (1 # 100000) else p.
(** an observation [o] with the mean [m] and spread [s] of the ensemble: normal distribution with standard deviation exp(a + b s) *)
Definition normal_term (exq lgq : Qc -> Qc) (ndq : Qc -> Qc -> Qc -> Qc) (a b : Qc) (d : Qc * Qc * Qc) : Qc := let '(o, m, s) := d in lgq (at_least (ndq m (exq (a + b * s)%Qc) o)).
(** zero-adjusted gamma distribution: the probability of 0, and the density of the amounts otherwise *)
Definition zaga_term (lgq : Qc -> Qc) (gdq : Qc -> Qc -> Qc -> Qc) (P0 shape scale o : Qc) : Qc := if Qc_eq_dec o 0 then lgq P0 else lgq (at_least ((1 - P0) * gdq shape scale o)%Qc).
