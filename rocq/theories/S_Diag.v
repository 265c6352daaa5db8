(** What it means that an array version of a function applies the scalar version to each element. Independent of the model. *)
From Coq Require Import Reals.
From Verif Require Import RBase.

Section ew.
Context {A B C D E F : Type}.
(** [F] on two arrays: same sizes give the results in order, different sizes raise invalid_argument *)
Definition elementwise2 (F : list A -> list B -> res (list C)) (f : nat -> A -> B -> C) : Prop :=
  (forall a b, length a = length b -> exists out, F a b = Ok out /\ length out = length a /\
     forall i x y, nth_error a i = Some x -> nth_error b i = Some y -> nth_error out i = Some (f i x y)) /\
  (forall a b, length a <> length b -> F a b = Throw InvalidArgument).
Definition elementwise3 (F : list A -> list B -> list C -> res (list D)) (f : A -> B -> C -> D) : Prop :=
  (forall a b c, length a = length b -> length a = length c -> exists out, F a b c = Ok out /\ length out = length a /\
     forall i x y z, nth_error a i = Some x -> nth_error b i = Some y -> nth_error c i = Some z -> nth_error out i = Some (f x y z)) /\
  (forall a b c, length a <> length b \/ length a <> length c -> F a b c = Throw InvalidArgument).
Definition elementwise4 (F : list A -> list B -> list C -> list D -> res (list E)) (f : A -> B -> C -> D -> E) : Prop :=
  (forall a b c d, length a = length b -> length a = length c -> length a = length d -> exists out, F a b c d = Ok out /\ length out = length a /\
     forall i x y z t, nth_error a i = Some x -> nth_error b i = Some y -> nth_error c i = Some z -> nth_error d i = Some t -> nth_error out i = Some (f x y z t)) /\
  (forall a b c d, length a <> length b \/ length a <> length c \/ length a <> length d -> F a b c d = Throw InvalidArgument).
(** [F] on five arrays when the scalar version [f] can raise an exception *)
Definition elementwise5 (G : list A -> list B -> list C -> list D -> list E -> res (list F)) (f : A -> B -> C -> D -> E -> res F) : Prop :=
  (forall a b c d e, length a = length b -> length a = length c -> length a = length d -> length a = length e ->
     (forall i x y z t u, nth_error a i = Some x -> nth_error b i = Some y -> nth_error c i = Some z -> nth_error d i = Some t -> nth_error e i = Some u ->
        exists v, f x y z t u = Ok v) ->
     exists out, G a b c d e = Ok out /\ length out = length a /\
     forall i x y z t u, nth_error a i = Some x -> nth_error b i = Some y -> nth_error c i = Some z -> nth_error d i = Some t -> nth_error e i = Some u ->
       exists v, f x y z t u = Ok v /\ nth_error out i = Some v) /\
  (forall a b c d e, length a <> length b \/ length a <> length c \/ length a <> length d \/ length a <> length e -> G a b c d e = Throw InvalidArgument).
End ew.

(** the pressure, temperature, humidity and dew point that sea_level_pressure accepts; humidity and dew point may be missing *)
Local Open Scope R_scope.
Definition slp_accepts (ps temperature : R) (rh dew : rv) : Prop :=
  0 <= ps /\ 0 <= temperature /\ (r_valid rh = true -> exists x, rh = RF x /\ 0 <= x <= 1) /\ (r_valid dew = true -> exists x, dew = RF x /\ 0 <= x) /\
  rh <> RPInf /\ rh <> RNInf /\ dew <> RNInf.
