(** Specification of neighbourhood_search. *)
From Verif Require Import Base S_Stat S_Neigh.

(** a window entry: search value and field value *)
Definition both_finite (p : val * val) : bool := is_valid (fst p) && is_valid (snd p).
Definition in_target (tmin tmax : Qc) (p : val * val) : bool := match fst p with Fin s => qleb tmin s && qleb s tmax | _ => false end.
Definition differs (own delta : Qc) (p : val * val) : bool := match fst p with Fin s => qleb delta (s - own) || qleb delta (own - s) | _ => false end.
Definition qabs (x : Qc) : Qc := if qltb x 0 then (- x)%Qc else x.
(** distance of a number outside the range [tmin, tmax] to the range *)
Definition range_dist (tmin tmax : Qc) (p : val * val) : Qc :=
  match fst p with Fin s => if qltb s tmin then (tmin - s)%Qc else if qltb tmax s then (s - tmax)%Qc else 0%Qc | _ => 0%Qc end.
(** c is the first element of l with the smallest key *)
Definition first_nearest (key : val * val -> Qc) (l : list (val * val)) (c : val * val) : Prop :=
  exists pre post, l = pre ++ c :: post /\ (forall p, In p pre -> (key c < key p)%Qc) /\ (forall p, In p post -> (key c <= key p)%Qc).
(** the result for a cell with own search value [own] and original value [orig], given the window entries in row order *)
Definition searched (tmin tmax delta own : Qc) (orig : val) (window : list (val * val)) (v : val) : Prop :=
  let cells := filter both_finite window in
  let hits := filter (in_target tmin tmax) cells in
  let others := filter (differs own delta) cells in
  match hits with
  | [] => match others with [] => v = orig | _ => exists c, first_nearest (range_dist tmin tmax) others c /\ v = snd c end
  | _ => v = Fin (qmean (finites (map snd hits)))
  end.
(** the entries of two equally shaped fields paired *)
Definition pair2 (a b : vec2) : list (list (val * val)) := map (fun rs => combine (fst rs) (snd rs)) (combine a b).
(** what happens to cell (y, x) of a field with mask value a (mask absent: a = 1) *)
Definition search_value (array search : vec2) (h : Z) (tmin tmax delta : Qc) (a y x : Z) (v : val) : Prop :=
  forall own orig, get2 search y x = Ok own -> get2 array y x = Ok orig ->
  match own with
  | Fin own => if a =? 1 then searched tmin tmax delta own orig (around (pair2 search array) h y x) v else v = orig
  | _ => v = orig
  end.
