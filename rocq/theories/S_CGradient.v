(** Specification of the client's gradient downscaler. *)
From Coq Require Import Sorted.
From Verif Require Import Base M_Stat S_Stat S_Search M_COpt M_CUtil S_CUtil M_CCal S_CCal M_CCal2 S_CCal2 M_CTree S_CTree M_CDown S_CDown M_CGradient.
Local Open Scope Z_scope.

(** the number that a value stands for, if any *)
Definition quantity (v : val) : option Qc := match v with Fin q => if Qc_eq_dec q missing_number then None else Some q | _ => None end.
(** the value at a point of a grid, and that of a member of a field *)
Definition at2 (g : list vec) (p : Z * Z) : val := match get2 g (fst p) (snd p) with Ok v => v | _ => NaN end.
Definition atf (f : field) (e : Z) (p : Z * Z) : val := match f_get f (fst p) (snd p) e with Ok v => v | _ => NaN end.
(** the points within a radius, in any order *)
Definition neighbours (ny nx r a b : Z) (l : list (Z * Z)) : Prop := NoDup l /\ forall p, In p l <-> close ny nx r a b p.
Definition not_below (lo : option Qc) (q : Qc) : Qc := match lo with Some a => if Qclt_le_dec q a then a else q | None => q end.
Definition not_above (hi : option Qc) (q : Qc) : Qc := match hi with Some b => if Qclt_le_dec b q then b else q | None => q end.

(** the pairs of value and elevation for the elevation gradient *)
Definition elev_pair (tr : val -> val) (minLaf : Qc) (elev value laf : val) : list (Qc * Qc) :=
  match quantity elev, quantity (tr value) with
  | Some x, Some y => match quantity laf with Some c => if Qclt_le_dec c minLaf then [] else [(y, x)] | None => [(y, x)] end
  | _, _ => []
  end.
(** enough points, a sufficient range of elevations, not all the same *)
Definition enough (minNum : Z) (minDiff : Qc) (l : list (Qc * Qc)) : Prop :=
  minNum <= zlen l /\ (exists p p', In p l /\ In p' l /\ minDiff <= snd p' - snd p)%Qc /\ (exists p p', In p l /\ In p' l /\ snd p <> snd p').
(** b is the slope of the best line *)
Definition best_slope (l : list (Qc * Qc)) (b : Qc) : Prop := exists a, forall a' b', (squared_error l a b <= squared_error l a' b')%Qc.
(** the elevation gradient: the constant, or the regression slope, or the default; then within its limits.  A slope of exactly -999 counts as none *)
Definition elev_rule (o : gopts) (minDiff default : Qc) (l : list (Qc * Qc)) (g : Qc) : Prop :=
  exists raw, match quantity (g_constant o) with
    | Some c => raw = c
    | None => (enough (g_min_num o) minDiff l -> exists b, best_slope l b /\ raw = if Qc_eq_dec b missing_number then default else b) /\
              (~ enough (g_min_num o) minDiff l -> raw = default)
    end /\ g = not_above (quantity (g_max o)) (not_below (quantity (g_min o)) raw).

(** the points with land fraction (fraction, elevation, value) for the gradient along the coast *)
Definition laf_point (laf elev value : val) : list (Qc * val * Qc) := match quantity laf, quantity value with Some c, Some y => [(c, elev, y)] | _, _ => [] end.
Definition lowest (l : list (Qc * val * Qc)) (p : Qc * val * Qc) : Prop := In p l /\ forall p', In p' l -> (fst (fst p) <= fst (fst p'))%Qc.
Definition highest (l : list (Qc * val * Qc)) (p : Qc * val * Qc) : Prop := In p l /\ forall p', In p' l -> (fst (fst p') <= fst (fst p))%Qc.
(** a point of the sea; note that a missing land fraction of -999 is one *)
Definition sea (laf : val) : bool := match laf with Fin q => if Qclt_le_dec q (Q2Qc (1 # 2)) then true else false | NInf => true | _ => false end.
(** the gradient in a neighbourhood, if there is one: the difference of the values, moved to the same elevation, per land fraction *)
Definition radius_rule (minDiff minSea g : Qc) (elev laf value : Z * Z -> val) (nb : list (Z * Z)) (k : option Qc) : Prop :=
  let pts := flat_map (fun p => laf_point (laf p) (elev p) (value p)) nb in
  let used := filter (fun p => if quantity (value p) then true else false) nb in
  let seas := filter (fun p => sea (laf p)) used in
  (pts = [] -> k = None) /\
  (pts <> [] -> exists c1 e1 y1 c2 e2 y2, lowest pts (c1, e1, y1) /\ highest pts (c2, e2, y2) /\
    let reliable := (minDiff <= c2 - c1)%Qc /\ (minSea * qz (zlen used) <= qz (zlen seas))%Qc /\ ~ missing e1 /\ ~ missing e2 in
    (forall z1 z2, e1 = Fin z1 -> e2 = Fin z2 -> reliable -> k = Some ((y2 - g * (z2 - z1) - y1) / (c2 - c1))%Qc) /\ (~ reliable -> k = None)).
(** the weighted mean over the neighbourhoods that give one; a weighted sum of exactly -999 counts as none *)
Definition laf_rule (ny nx a b : Z) (minDiff minSea g : Qc) (elev laf value : Z * Z -> val) (radii : list Z) (ws : list Qc) (l : val) : Prop :=
  exists ks, Forall2 (fun r k => exists nb, neighbours ny nx r a b nb /\ radius_rule minDiff minSea g elev laf value nb k) radii ks /\
  let sw := flat_map (fun kw => match fst kw with Some s => [(s, snd kw)] | None => [] end) (combine ks ws) in
  let sum := qsum (map (fun x => fst x * snd x)%Qc sw) in
  (sw = [] \/ sum = missing_number -> l = Fin missing_number) /\ (sw <> [] -> sum <> missing_number -> l = Fin (sum / qsum (map snd sw))%Qc).

(** the land fraction of an output point: its own, or the mean of those present around it *)
Definition laf_of_point (ny nx r i j : Z) (olafs : list vec) (c : option Qc) : Prop :=
  (r = 0 -> c = quantity (at2 olafs (i, j))) /\
  (r <> 0 -> exists nb, neighbours ny nx r i j nb /\ let l := present (map (at2 olafs) nb) in (l = [] -> c = None) /\ (l <> [] -> c = quantity (Fin (qmean l)))).
(** the value moved along the two gradients, and the original one if this is not possible for the variable *)
Definition moved (expo : Qc -> Qc) (logt : bool) (base g : Qc) (elev1 elev0 : val) (l : val) (laf1 : option Qc) (laf0 : val) : Qc :=
  let u := match quantity elev1, quantity elev0 with Some z1, Some z0 => if logt then (base * expo ((z1 - z0) * g))%Qc else (base + (z1 - z0) * g)%Qc | _, _ => base end in
  match laf1, quantity laf0, quantity l with Some c1, Some c0, Some l => (u + (c1 - c0) * l)%Qc | _, _, _ => u end.
Definition allowed (vmin vmax : val) (base u : Qc) : Qc :=
  match quantity vmin with Some a => if Qclt_le_dec u a then base else match quantity vmax with Some b => if Qclt_le_dec b u then base else u | None => u end
  | None => match quantity vmax with Some b => if Qclt_le_dec b u then base else u | None => u end end.
(** p comes before p' *)
Definition before (p p' : Z * Z) : Prop := fst p < fst p' \/ (fst p = fst p' /\ snd p < snd p').

(** the files and options that are meant *)
Record setting (D : Qc -> Qc -> Qc -> Qc -> Qc) (di d : dims) (ilats ilons ielevs ilafs olats olons oelevs olafs : list vec) (m : list (list (Z * Z))) (ifs gfs ofs : list field)
    (o : gopts) (minDiff minLaf default minLafDiff minSea : Qc) (ws : list Qc) : Prop := {
  st_input : grid (d_y di) (d_x di) ilats ilons; st_ielevs : rect (d_y di) (d_x di) ielevs; st_ilafs : rect (d_y di) (d_x di) ilafs;
  st_output : grid (d_y d) (d_x d) olats olons; st_oelevs : rect (d_y d) (d_x d) oelevs; st_olafs : rect (d_y d) (d_x d) olafs;
  st_map : nearest_map D ilats ilons (d_y d) (d_x d) olats olons m;
  st_ifs : shaped di ifs; st_gfs : shaped di gfs; st_ofs : shaped d ofs; st_times : d_t di = d_t d; st_members : d_e d <= d_e di;
  st_min_diff : g_min_diff o = Fin minDiff; st_min_laf : g_min_laf o = Fin minLaf; st_default : g_default o = Fin default;
  st_min_laf_diff : g_min_laf_diff o = Fin minLafDiff; st_min_sea : g_min_sea o = Fin minSea;
  st_weights : g_laf_weights o = map Fin ws; st_lengths : zlen (g_laf_radii o) = zlen ws }.
Definition all_points (d : dims) (olats olons : list vec) : Prop := forall y x, 0 <= y < d_y d -> 0 <= x < d_x d -> exists lat lon, point olats olons y x lat lon.
(** the regression is not taken for unstable: the sum of squares is not the square of the sum *)
Definition not_unstable (l : list (Qc * Qc)) : Prop := (qsum (map (fun p => snd p * snd p) l) <> qsum (map snd l) * qsum (map snd l))%Qc.
(** the value is brought into the range of the values nb, as long as they are above -999; exactly so if the greatest value is not the first one *)
Definition limited (nb : list (Z * Z)) (value : Z * Z -> val) (u : Qc) (w : val) : Prop :=
  let l := present (map value nb) in
  (forall q, In q l -> missing_number < q)%Qc -> forall mn mx, is_min l mn -> is_max l mx -> exists q, w = Fin q /\ (mn <= q <= mx)%Qc /\
    ((exists p p', In p nb /\ In p' nb /\ before p' p /\ value p = Fin mx /\ ~ missing (value p')) -> q = not_below (Some mn) (not_above (Some mx) u)).
(** a row of three points and an output point at the first *)
Definition row3 (a b c : val) : list vec := [[a; b; c]].
Definition dims3 : dims := {| d_y := 1; d_x := 3; d_e := 1; d_t := 1 |}.
Definition field3 (a b c : val) : field := {| f_values := [a; b; c]; f_ny := 1; f_nx := 3; f_ne := 1 |}.
Definition east (lat lon lat' lon' : Qc) : Qc := ((lon - lon') * (lon - lon'))%Qc.
