(** Distributions of loop iterations over threads. *)
From Verif Require Import Base.

(** every iteration 0..n-1 is run by some thread (possibly by several), and no other *)
Definition covers1 (n : Z) (ds : list (list Z)) : Prop := forall i, In i (concat ds) <-> 0 <= i < n.
Definition covers2 (nY nX : Z) (ds : list (list (Z * Z))) : Prop :=
  forall i, In i (concat ds) <-> (0 <= fst i < nY /\ 0 <= snd i < nX).
