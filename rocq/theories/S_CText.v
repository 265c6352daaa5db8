(** Specification of formatted text. *)
From Coq Require Import Ascii String.
From Verif Require Import Base M_COpt S_COpt M_CText.
Local Open Scope Z_scope.

(** the lines of a text *)
Inductive Lines : str -> list str -> Prop :=
| L_last s : ~ In newline s -> Lines s [s]
| L_line s t ls : ~ In newline s -> Lines t ls -> Lines (s ++ newline :: t) (s :: ls).
Definition spacing : str := [" "%char; newline].
