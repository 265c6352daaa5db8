(** Sub-ranges of a list. *)
From Verif Require Import Base.

(** the elements of a list at the positions lo..hi that exist *)
Definition slice {A} (l : list A) (lo hi : Z) : list A :=
  map snd (filter (fun p => (lo <=? fst p) && (fst p <=? hi)) (combine (zrange 0 (zlen l)) l)).
