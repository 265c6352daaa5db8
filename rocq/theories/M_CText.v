(** Model of Util::formatDescription, src/client/Util.cpp:286-327. *)
From Coq Require Import Ascii String.
From Verif Require Import Base M_COpt.
Local Open Scope Z_scope.

Definition blanks (n : Z) : str := repeat " "%char (Z.to_nat n).
Definition newline : ascii := "010"%char.
(** conversion of an int to size_t in the comparison at line 310 *)
Definition to_size (x : Z) : Z := x mod 18446744073709551616.
(** Util.cpp:307-323: the finished lines and the current one *)
Fixpoint format_words (tlen mlen : Z) (i : Z) (words : list str) (ss curr : str) : str :=
  match words with
  | [] => ss ++ curr
  | word :: t =>
      if to_size mlen <? zlen curr + zlen word
      then format_words tlen mlen (i + 1) t (ss ++ curr ++ [newline]) (blanks tlen ++ word)
      else format_words tlen mlen (i + 1) t ss (curr ++ (if i =? 0 then [] else [" "%char]) ++ word)
  end.
Definition format_description (title message : str) (tlen mlen indent : Z) : str :=
  if mlen <=? tlen then title ++ txt " " ++ message
  else
    let curr := blanks indent ++ title in
    format_words tlen mlen 0 (split (txt " ") message) [] (curr ++ blanks (tlen - zlen curr)).
