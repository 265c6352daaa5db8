(** Specification vocabulary for relative humidity: saturation vapour pressure by linear interpolation in a table. *)
From Verif Require Import Base M_RelHum.

(** table value number [l] *)
Definition table (l : Z) (q : Qc) : Prop := znth ewt l = Ok (Fin q).
(** [s] is the saturation vapour pressure at temperature [t]: linear between 173.16 K, 178.16 K, ..., 368.16 K,
    constant outside *)
Definition saturation (t s : Qc) : Prop :=
  ((t <= Q2Qc (17316 # 100))%Qc -> table 0 s) /\
  ((Q2Qc (36816 # 100) <= t)%Qc -> table 39 s) /\
  forall l f a b, 0 <= l < 39 -> (0 <= f /\ f < 1)%Qc -> t = (Q2Qc (17316 # 100) + qz 5 * (qz l + f))%Qc -> table l a -> table (l + 1) b ->
    s = (a + f * (b - a))%Qc.
