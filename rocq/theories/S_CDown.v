(** Specification of downscalers of the client and of the grid of a file. *)
From Verif Require Import Base M_Stat S_Stat S_Search M_COpt M_CUtil S_CUtil M_CCal S_CCal M_CTree S_CTree M_CDown.
Local Open Scope Z_scope.

(** the coordinates of a file: latitudes in [-90, 90] and longitudes in [-180, 180], or NaN *)
Definition coordinate (limit : Z) (v : val) : Prop := v = NaN \/ exists q, v = Fin q /\ (qz (- limit) <= q <= qz limit)%Qc.
Definition coordinates (limit : Z) (g : list vec) : Prop := forall i j v, get2 g i j = Ok v -> coordinate limit v.
Definition file_grid (ny nx : Z) (lats lons : list vec) : Prop := grid ny nx lats lons /\ coordinates 90 lats /\ coordinates 180 lons.
(** each output point has the nearest input point, or -999 if it has no coordinates *)
Definition nearest_map (D : Qc -> Qc -> Qc -> Qc -> Qc) (ilats ilons : list vec) (ny nx : Z) (olats olons : list vec) (m : list (list (Z * Z))) : Prop :=
  rect ny nx m /\
  forall i j la lo, get2 olats i j = Ok la -> get2 olons i j = Ok lo ->
    (missing la \/ missing lo -> get2 m i j = Ok (-999, -999)) /\
    (forall lat lon, point olats olons i j lat lon -> exists a b, get2 m i j = Ok (a, b) /\ is_nearest (D lat lon) ilats ilons a b).
(** what a program does with files *)
Inductive op := NewFile | CopyFile (k : Z) | SetLats (k : Z) (g : list vec) | SetLons (k : Z) (g : list vec) | Nearest (from to : Z).
Definition step (gc : val -> val -> val -> val -> val) (srt : bool -> list item -> list item) (s : cstate) (o : op) : res cstate :=
  match o with
  | NewFile => Ok (new_file s)
  | CopyFile k => copy_file s k
  | SetLats k g => r <- set_lats s k g ;; Ok (snd r)
  | SetLons k g => r <- set_lons s k g ;; Ok (snd r)
  | Nearest a b => r <- get_nearest gc srt s a b ;; Ok (snd r)
  end.
Definition start : cstate := {| cs_files := []; cs_next := 0; cs_cache := [] |}.
(** the points of a grid within a radius of (a, b) *)
Definition close (ny nx radius a b : Z) (p : Z * Z) : Prop :=
  0 <= fst p < ny /\ 0 <= snd p < nx /\ a - radius <= fst p <= a + radius /\ b - radius <= snd p <= b + radius.
Definition elev_diff (ielevs : list vec) (oelev : Qc) (p : Z * Z) (q : Qc) : Prop :=
  exists v, get2 ielevs (fst p) (snd p) = Ok v /\ ((missing v /\ q = qz 10000000000) \/ exists x, v = Fin x /\ x <> missing_number /\ q = qabs (x - oelev)%Qc).
(** num of them, none of the others having a more similar elevation *)
Definition most_similar (ny nx radius num a b : Z) (ielevs : list vec) (oelev : Qc) (l : list (Z * Z)) : Prop :=
  NoDup l /\ Forall (close ny nx radius a b) l /\
  (forall p p' q q', In p l -> close ny nx radius a b p' -> ~ In p' l -> elev_diff ielevs oelev p q -> elev_diff ielevs oelev p' q' -> (q <= q')%Qc) /\
  zlen l <= num /\ (zlen l < num -> forall p, close ny nx radius a b p -> In p l).
(** the values of points *)
Definition values_at (fs : list field) (t e : Z) (l : list (Z * Z)) (vs : vec) : Prop := Forall2 (fun p v => element fs t (fst p) (snd p) e v) l vs.
Definition lift1 (f : Qc -> Qc) (v : val) : val := match v with Fin q => Fin (f q) | _ => NaN end.
(** the same longitude in [-180, 180] *)
Definition wrapped (v w : val) : Prop := (v = NaN /\ w = NaN) \/ exists q r k, v = Fin q /\ w = Fin r /\ (qz (-180) <= r <= qz 180)%Qc /\ (q = r + qz (360 * k))%Qc.
Definition within_limit (limit : Z) (v : val) : Prop := v = NaN \/ exists q, v = Fin q /\ (qz (- limit) <= q <= qz limit)%Qc.
Definition not_zero (v : val) : Prop := v <> Fin 0%Qc.
(** the nearest point has almost the elevation of the output point *)
Definition no_elev_diff (minElevDiff : val) (oelev nn : val) : Prop := exists o n dd, oelev = Fin o /\ o <> missing_number /\ nn = Fin n /\ n <> missing_number /\ minElevDiff = Fin dd /\ dd <> missing_number /\ (qabs (o - n) <= dd)%Qc.
