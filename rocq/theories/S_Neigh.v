(** Specification of neighbourhood filters. *)
From Verif Require Import Base S_Stat.
From Verif Require Export S_Slice.

(** all values within h rows and h columns of (y, x) that exist *)
Definition around {A} (f : list (list A)) (h y x : Z) : list A :=
  concat (map (fun row => slice row (x - h) (x + h)) (slice f (y - h) (y + h))).
(** the members of all cells within h rows and columns *)
Definition around3 (f : vec3) (h y x : Z) : vec := concat (around f h y x).
(** v is the statistic st of the numbers l; without numbers it is missing (Count: 0) *)
Definition stat_of (E : ext) (st : statistic) (l : list Qc) (v : val) : Prop :=
  match l with
  | [] => v = if stat_eqb st Count then fz 0 else MV
  | _ => match st with
         | Mean => v = Fin (qmean l)
         | Sum => v = Fin (qsum l)
         | Count => v = Fin (qlen l)
         | Min => exists m, v = Fin m /\ is_min l m
         | Max => exists m, v = Fin m /\ is_max l m
         | Median => exists m, v = Fin m /\ is_quantile l (Q2Qc (1 # 2)) m
         | Variance => v = Fin (qvar l)
         | Std => v = Fin (ext_sqrt E (qvar l))
         | _ => False
         end
  end.
(** v is the level-q quantile of the numbers l, missing without numbers *)
Definition quantile_of (q : Qc) (l : list Qc) (v : val) : Prop :=
  match l with [] => v = MV | _ => exists m, v = Fin m /\ is_quantile l q m end.
(** out has nY rows and nX columns and its cell (y, x) satisfies cell y x *)
Definition filtered (nY nX : Z) (cell : Z -> Z -> val -> Prop) (out : vec2) : Prop :=
  rect nY nX out /\ forall y x, 0 <= y < nY -> 0 <= x < nX -> exists v, get2 out y x = Ok v /\ cell y x v.
(** v lies between the smallest and the largest of l; missing iff l is empty *)
Definition within (l : list Qc) (v : val) : Prop :=
  (v = MV <-> l = []) /\ (l <> [] -> exists r lo hi, v = Fin r /\ is_min l lo /\ is_max l hi /\ (lo <= r <= hi)%Qc).
(** a missing value (of any kind) as the API's missing value *)
Definition norm (v : val) : val := if is_valid v then v else MV.
(** no cells: no rows, an empty first row, (3D) an empty first cell *)
Definition empty2 {A} (f : list (list A)) : Prop := f = [] \/ exists r, f = [] :: r.
Definition empty3 {A} (f : list (list (list A))) : Prop := empty2 f \/ exists c r, f = ([] :: c) :: r.
(** r are at most num nondecreasing values of l, from its minimum to its maximum; none if l is empty *)
Definition thresholds_ok (l : list Qc) (num : Z) (r : res vec) : Prop :=
  (l = [] -> r = Ok []) /\
  (l <> [] -> exists out, r = Ok (map Fin out) /\ out <> [] /\ zlen out <= num /\ incl out l /\ qsorted out /\
     is_min l (qnth out 0) /\ (2 <= num -> is_max l (qnth out (zlen out - 1)))).
