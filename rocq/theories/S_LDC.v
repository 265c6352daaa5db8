(** Specification of local distribution correction. *)
From Coq Require Import Permutation Sorted.
From Verif Require Import Base M_Geo S_Stat S_Interp S_Geo S_Near M_LDC.
Local Open Scope Z_scope.

(** contract of the external code: exp of a non-positive number lies in [0, 1]; std::sort reorders, ascending by first member *)
Record ldclib_ok (L : ldclib) : Prop := {
  ok_exp : forall q, (q <= 0)%Qc -> exists e, e_exp L (Fin q) = Fin e /\ (0 <= e <= 1)%Qc;
  ok_sperm : forall l, Permutation (e_sort L l) l;
  ok_ssorted : forall l, (forall e, In e l -> fst e <> NaN) -> StronglySorted (fun a b => vleb (fst a) (fst b) = true) (e_sort L l) }.
(** an instance *)
Fixpoint pins (e : val * val) (l : list (val * val)) : list (val * val) :=
  match l with [] => [e] | x :: r => if vltb (fst x) (fst e) then x :: pins e r else e :: l end.
Definition LD0 : ldclib := {| e_exp := fun v => vdiv (fz 1) (vsub (fz 1) v); e_sort := fold_right pins [] |}.

(** observation k at time t, its background and its weight: both known and not negative *)
Definition pair_of (pobs pbg : vec2) (w : Z -> Qc) (k t : Z) : list (Qc * Qc * Qc) :=
  match get2 pobs t k, get2 pbg t k with
  | Ok (Fin o), Ok (Fin f) => if qleb 0 o && qleb 0 f then [(o, f, w k)] else []
  | _, _ => []
  end.
Definition pairs_of (pobs pbg : vec2) (w : Z -> Qc) (I : list Z) : list (Qc * Qc * Qc) :=
  concat (map (fun k => concat (map (pair_of pobs pbg w k) (zrange 0 (zlen pobs)))) I).
Definition p_obs (p : Qc * Qc * Qc) : Qc * Qc := (fst (fst p), snd p).
Definition p_bg (p : Qc * Qc * Qc) : Qc * Qc := (snd (fst p), snd p).
Definition is_floor (q : Qc) (d : Z) : Prop := (qz d <= q /\ q < qz (d + 1))%Qc.
(** [m] are the (value, weight) pairs of [l] in ascending order, without those below and above the quantile range *)
Definition middle (lo hi : Qc) (l m : list (Qc * Qc)) : Prop :=
  exists a c, Permutation (a ++ m ++ c) l /\ StronglySorted (fun x y => (fst x <= fst y)%Qc) (a ++ m ++ c) /\
    is_floor (qz (zlen l) * lo) (zlen a) /\ is_floor (qz (zlen l) * hi) (zlen (a ++ m)).
(** the values of a calibration curve start at 0; its levels are the shares of the weights, scaled to [lo, hi], starting at 0 *)
Definition curve_values (m : list (Qc * Qc)) : list Qc := 0%Qc :: map fst m.
Definition curve_levels (lo hi : Qc) (m : list (Qc * Qc)) : list Qc :=
  0%Qc :: map (fun j => lo + qsum (firstn (Z.to_nat j) (map snd m)) / qsum (map snd m) * (hi - lo))%Qc (zrange 1 (zlen m + 1)).
Definition interp_at (X Y : list Qc) (x r : Qc) : Prop := exists a b, bracket X x a b /\ interp_rule X Y x a b r.
Definition top (m : list (Qc * Qc)) : Qc := qnth (curve_values m) (zlen m).
Definition tiny : Qc := Q2Qc (1 # 100).
Definition small : Qc := Q2Qc (1 # 10).
(** the correction of background [b] with observations [R] and backgrounds [F]; [e] is the decay of the background's weight *)
Definition correction (lo hi : Qc) (R F : list (Qc * Qc)) (e b v : Qc) : Prop :=
  (b < tiny -> v = 0)%Qc /\
  (tiny <= b -> top R <= 0 -> (b < qz 3 * top F \/ b < small -> v = 0) /\ (qz 3 * top F <= b -> small <= b -> v = b))%Qc /\
  (tiny <= b -> 0 < top R -> top F <= b -> v = b + (top R - top F))%Qc /\
  (tiny <= b -> 0 < top R -> b < top F -> exists q m, interp_at (curve_values F) (curve_levels lo hi F) b q /\
     interp_at (curve_levels lo hi R) (curve_values R) q m /\ 0 <= m <= top R /\ v = (1 - e) * m + e * b)%Qc.
(** the result for a cell with background [b] and pairs [ps]; equal lists are sorted alike, ties included *)
Definition ldc_value (L : ldclib) (lo hi : Qc) (min_points : Z) (ps : list (Qc * Qc * Qc)) (b : Qc) (v : val) : Prop :=
  (zlen ps < min_points -> v = Fin b) /\
  (min_points <= zlen ps -> exists R F e r, middle lo hi (map p_obs ps) R /\ middle lo hi (map p_bg ps) F /\
     e_exp L (Fin (- (tiny * qsum (map snd ps))))%Qc = Fin e /\ (0 <= e <= 1)%Qc /\ v = Fin r /\ correction lo hi R F e b r /\ (0 <= r)%Qc /\
     (map p_obs ps = map p_bg ps -> R = F)).
(** station k lies within the localization distance of cell [p1], at [pos]; the weights [w] are the positive correlations *)
Definition in_reach G t las los (loc : point -> val) (p1 : point) (pos : xyz) (k : Z) : Prop :=
  exists q, point_at G t las los k q /\ in_circle pos q (loc p1).
Definition weights_of (pts : points) (bg : point -> point -> val) (p1 : point) (reach : Z -> Prop) (w : Z -> Qc) : Prop :=
  forall k pk, reach k -> points_get pts k = Ok pk -> bg p1 pk = Fin (w k) /\ (0 < w k)%Qc.
