(** Pointwise application: out has the shape of input and each entry of out is what f returns for the entry of input. *)
From Verif Require Import Base.
Definition pointwise {A B} (f : A -> res B) : list A -> list B -> Prop := Forall2 (fun x y => f x = Ok y).
Definition pointwise2 {A B} (f : A -> res B) : list (list A) -> list (list B) -> Prop := Forall2 (pointwise f).
