(** Specification for C285 and C286: fields whose size is not that of the grid or of the points. *)
From Verif Require Import Base.
Local Open Scope Z_scope.

(** a field whose number of rows, or number of columns in the first row, is not that of the grid *)
Definition other_size {A} (Y X : Z) (v : list (list A)) : Prop := exists v0, znth v 0 = Ok v0 /\ (zlen v <> Y \/ zlen v0 <> X).
(** a time series of fields whose first field has another size *)
Definition other_size3 {A} (Y X : Z) (v : list (list (list A))) : Prop := exists v0, znth v 0 = Ok v0 /\ other_size Y X v0.
(** a time series of values at points whose first entry has another size *)
Definition other_length {A} (n : Z) (v : list (list A)) : Prop := exists v0, znth v 0 = Ok v0 /\ zlen v0 <> n.
(** two fields that differ in size somewhere *)
Definition sizes_differ {A B} (a : list (list A)) (b : list (list B)) : Prop :=
  zlen a <> zlen b \/ exists y u v, znth a y = Ok u /\ znth b y = Ok v /\ zlen u <> zlen v.
