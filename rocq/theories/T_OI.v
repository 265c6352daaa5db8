(** Optimal interpolation: C57-C62, C79-C84. *)
From Coq Require Import Permutation.
From Verif Require Import Base QcTac ListLib M_Geo S_Geo S_Near M_OI S_OI P_Geo P_OI P_OIInv P_OIProps P_OITotal P_OIGrid P_OIPerm P_OIThm P_OIRef.
Local Open Scope Z_scope.

(** C57: points without usable observations, and missing background, are untouched *)
Theorem C57_background_unchanged : forall (G : geo) (L : lib) (S : sfn) (t : ctype) (blas blos : list Qc) (bpts : points) (las los : list Qc) (pts : points)
  (loc : point -> val) (rho bg : point -> point -> val) (background bvariance pobs ov pbg bvp : vec) (mp : Z) (av0 : vec) (ex : bool),
  setting G L S t blas blos bpts las los pts loc rho bg -> zlen pbg = zlen las ->
  (forall out var, oi_full G L S bpts background bvariance pts pobs ov pbg bvp mp av0 ex = Ok (out, var) ->
     zlen out = zlen background /\ (las = [] -> out = background) /\
     (forall y b, znth background y = Ok b -> is_valid b = false ->
        znth out y = Ok b /\ (las <> [] -> znth var y = znth bvariance y)) /\
     (forall y b p1 pos, znth background y = Ok b -> bpoint G t blas blos bpts y p1 pos -> (forall k, ~ usable G t las los pts pobs pbg loc bg p1 pos k) ->
        znth out y = Ok b /\ (las <> [] -> znth var y = znth bvariance y))) /\
  (0 <= mp -> zlen background = zlen blas -> zlen bvariance = zlen blas -> zlen pobs = zlen las -> zlen ov = zlen las -> zlen bvp = zlen las ->
   (forall y p1 pos k, bpoint G t blas blos bpts y p1 pos -> ~ usable G t las los pts pobs pbg loc bg p1 pos k) ->
   exists var, oi_full G L S bpts background bvariance pts pobs ov pbg bvp mp av0 ex = Ok (background, var) /\ (las <> [] -> var = bvariance)).
Proof. exact c57_all'. Qed.
Print Assumptions C57_background_unchanged.
Example C57_example :
  setting G0 L0 (sf0 (qz 10)) Cartesian (zeros [2; 50]) (map qz [2; 50]) (xpts [2; 50]) (zeros [0; 1]) (map qz [0; 1]) (xpts [0; 1]) (fun _ => Fin (qz 10)) kern kern /\
  oi_full G0 L0 (sf0 (qz 10)) (xpts [2; 50]) [NaN; fz 8] [fz 4; fz 4] (xpts [0; 1]) [fz 1; fz 5] [fz 1; fz 1] [fz 2; fz 2] [fz 1; fz 1] 0 [] true
    = Ok ([NaN; fz 8], [fz 4; fz 4]) /\
  exists p1 pos, bpoint G0 Cartesian (zeros [2; 50]) (map qz [2; 50]) (xpts [2; 50]) 1 p1 pos /\
    forall k, ~ usable G0 Cartesian (zeros [0; 1]) (map qz [0; 1]) (xpts [0; 1]) [fz 1; fz 5] [fz 2; fz 2] (fun _ => Fin (qz 10)) kern p1 pos k.
Proof.
  split; [apply setting0; pts_now|]. split; [vm_compute; reflexivity|]. do 2 eexists. split.
  - split; [cbn; reflexivity|]. exists (qz 0), (qz 50). repeat split.
  - intros k (q & pk & o & b & (la & lo & Ha & Hb & ->) & (HC & _) & _). destruct HC as (HC & _). revert HC. two k Hb; cbn in Ha, Hb; injection Ha as <-; injection Hb as <-;
      vm_compute; intuition congruence.
Qed.

(** C58: observations equal to the background change nothing *)
Theorem C58_no_departure : forall (G : geo) (L : lib) (S : sfn) (t : ctype) (blas blos : list Qc) (bpts : points) (las los : list Qc) (pts : points)
  (loc : point -> val) (rho bg : point -> point -> val) (background bvariance pobs ov pbg bvp : vec) (mp : Z) (av0 : vec) (ex : bool),
  setting G L S t blas blos bpts las los pts loc rho bg -> zlen pbg = zlen las ->
  forall (r : Z -> Z -> Qc) (ratio d : Z -> Qc), known_obs pts (zlen las) rho ov bvp r ratio -> departures pobs pbg d ->
  forall out var g, oi_full G L S bpts background bvariance pts pobs ov pbg bvp mp av0 ex = Ok (out, var) -> known_bg pts bpts (zlen blas) bg g -> (forall k, d k = 0%Qc) -> out = background.
Proof. exact c58_all'. Qed.
Print Assumptions C58_no_departure.
Example C58_example :
  setting G0 L0 (sf0 (qz 10)) Cartesian (zeros [2]) (map qz [2]) (xpts [2]) (zeros [0; 1]) (map qz [0; 1]) (xpts [0; 1]) (fun _ => Fin (qz 10)) kern kern /\
  known_obs (xpts [0; 1]) 2 kern [fz 1; fz 1] [fz 1; fz 1] r01 (fun _ => 1%Qc) /\ departures [fz 2; fz 5] [fz 2; fz 5] (fun _ => 0%Qc) /\
  known_bg (xpts [0; 1]) (xpts [2]) 1 kern (fun _ => g2) /\
  oi_full G0 L0 (sf0 (qz 10)) (xpts [2]) [fz 7] [fz 4] (xpts [0; 1]) [fz 2; fz 5] [fz 1; fz 1] [fz 2; fz 5] [fz 1; fz 1] 0 [] false = Ok ([fz 7], [fq (436 # 125)]).
Proof.
  split; [apply setting0; pts_now|]. split; [apply ex_obs; [|pts_now]; two_now; exists 1%Qc, 1%Qc; repeat split; try discriminate; vcalc|].
  split; [intros k o b Ho Hb; two k Ho; vm_compute in Ho, Hb; injection Ho as <-; injection Hb as <-; vcalc|].
  split; [intros y p1 Hy Hp; assert (y = 0) as -> by lia; apply ex_cell; [pts_now|]; cbn in Hp; injection Hp as <-; reflexivity|]. vm_compute; reflexivity.
Qed.

(** C59: the analysis is the documented linear combination of the departures *)
Theorem C59_analysis : forall (G : geo) (L : lib) (S : sfn) (t : ctype) (blas blos : list Qc) (bpts : points) (las los : list Qc) (pts : points)
  (loc : point -> val) (rho bg : point -> point -> val) (background bvariance pobs ov pbg bvp : vec) (mp : Z) (av0 : vec) (ex : bool),
  setting G L S t blas blos bpts las los pts loc rho bg -> zlen pbg = zlen las ->
  forall (r : Z -> Z -> Qc) (ratio d : Z -> Qc), known_obs pts (zlen las) rho ov bvp r ratio -> departures pobs pbg d ->
  forall out var y b v p1 pos g, oi_full G L S bpts background bvariance pts pobs ov pbg bvp mp av0 ex = Ok (out, var) -> znth background y = Ok (Fin b) -> znth bvariance y = Ok v ->
  bpoint G t blas blos bpts y p1 pos -> known_cell pts bg p1 g ->
  exists U o, chosen G t las los pts pobs pbg loc bg mp p1 pos U /\ znth out y = Ok o /\
    (las <> [] -> exists w, znth var y = Ok w /\ analysis U r ratio g d ex b v o w).
Proof. exact c59_all'. Qed.
Print Assumptions C59_analysis.
Example C59_example :
  setting G0 L0 (sf0 (qz 10)) Cartesian (zeros [2; 50]) (map qz [2; 50]) (xpts [2; 50]) (zeros [0; 1]) (map qz [0; 1]) (xpts [0; 1]) (fun _ => Fin (qz 10)) kern kern /\
  known_obs (xpts [0; 1]) 2 kern [fz 1; fz 1] [fz 1; fz 1] r01 (fun _ => 1%Qc) /\ departures [fz 1; fz 5] [fz 2; fz 2] d01 /\
  (exists p1 pos, bpoint G0 Cartesian (zeros [2; 50]) (map qz [2; 50]) (xpts [2; 50]) 0 p1 pos /\ known_cell (xpts [0; 1]) kern p1 g2) /\
  oi_full G0 L0 (sf0 (qz 10)) (xpts [2; 50]) [fz 7; fz 8] [fz 4; fz 4] (xpts [0; 1]) [fz 1; fz 5] [fz 1; fz 1] [fz 2; fz 2] [fz 1; fz 1] 0 [] true
    = Ok ([fq (192 # 25); fz 8], [fq (436 # 125); fz 4]).
Proof.
  split; [apply setting0; pts_now|]. split; [apply ex_obs; [|pts_now]; two_now; exists 1%Qc, 1%Qc; repeat split; try discriminate; vcalc|].
  split; [exact ex_dep|]. split; [|vm_compute; reflexivity]. do 2 eexists. split; [split; [cbn; reflexivity|exists (qz 0), (qz 2); repeat split]|].
  apply ex_cell; [pts_now|reflexivity].
Qed.

(** C60: one observation *)
Theorem C60_single_observation : forall (G : geo) (L : lib) (S : sfn) (t : ctype) (blas blos : list Qc) (bpts : points) (las los : list Qc) (pts : points)
  (loc : point -> val) (rho bg : point -> point -> val) (background bvariance pobs ov pbg bvp : vec) (mp : Z) (av0 : vec) (ex : bool),
  setting G L S t blas blos bpts las los pts loc rho bg -> zlen pbg = zlen las ->
  forall (r : Z -> Z -> Qc) (ratio d : Z -> Qc), known_obs pts (zlen las) rho ov bvp r ratio -> departures pobs pbg d ->
  forall out var y b v p1 pos g k, oi_full G L S bpts background bvariance pts pobs ov pbg bvp mp av0 ex = Ok (out, var) -> znth background y = Ok (Fin b) -> znth bvariance y = Ok (Fin v) ->
  bpoint G t blas blos bpts y p1 pos -> known_cell pts bg p1 g -> (forall j, usable G t las los pts pobs pbg loc bg p1 pos j <-> j = k) ->
  r k k = 1%Qc -> (0 <= ratio k)%Qc -> (g k <= 1)%Qc ->
  exists inc, znth out y = Ok (Fin (b + inc)%Qc) /\ inc = (g k / (1 + ratio k) * d k)%Qc /\
    ((0 <= d k)%Qc -> (0 <= inc <= d k)%Qc) /\ ((d k <= 0)%Qc -> (d k <= inc <= 0)%Qc) /\
    exists av, znth var y = Ok (Fin av) /\ av = (v * (1 - g k * g k / (1 + ratio k)))%Qc /\ ((0 <= v)%Qc -> (0 <= av <= v)%Qc).
Proof. exact c60_all'. Qed.
Print Assumptions C60_single_observation.
Example C60_example :
  setting G0 L0 (sf0 (qz 10)) Cartesian (zeros [2]) (map qz [2]) (xpts [2]) (zeros [0; 1]) (map qz [0; 1]) (xpts [0; 1]) (fun _ => Fin (qz 10)) kern kern /\
  (exists p1 pos, bpoint G0 Cartesian (zeros [2]) (map qz [2]) (xpts [2]) 0 p1 pos /\
     forall j, usable G0 Cartesian (zeros [0; 1]) (map qz [0; 1]) (xpts [0; 1]) [NaN; fz 5] [fz 2; fz 2] (fun _ => Fin (qz 10)) kern p1 pos j <-> j = 1) /\
  r01 1 1 = 1%Qc /\ (g2 1 <= 1)%Qc /\
  oi_full G0 L0 (sf0 (qz 10)) (xpts [2]) [fz 7] [fz 4] (xpts [0; 1]) [NaN; fz 5] [fz 1; fz 1] [fz 2; fz 2] [fz 1; fz 1] 0 [] true = Ok ([fq (31 # 4)], [fq (7 # 2)]).
Proof.
  split; [apply setting0; pts_now|]. split.
  - do 2 eexists. split; [split; [cbn; reflexivity|exists (qz 0), (qz 2); repeat split]|]. intros j. split.
    + intros (q & pk & o & b & _ & _ & _ & Ho & _). two j Ho; [cbn in Ho; discriminate|reflexivity].
    + intros ->. do 4 eexists. split; [exists (qz 0), (qz 1); repeat split|]. split; [vm_compute; intuition discriminate|]. split; [cbn; reflexivity|].
      split; [reflexivity|]. split; [reflexivity|]. vm_compute. reflexivity.
  - split; [vcalc|]. split; [vm_compute; discriminate|]. vcalc.
Qed.

(** C61: without extrapolation the increment stays within the departures.  False when the largest (smallest) departure is 0. *)
Theorem C61_no_extrapolation_refuted : exists G L S t blas blos bpts las los pts loc rho bg background bvariance pobs ov pbg bvp o out var,
  setting G L S t blas blos bpts las los pts loc rho bg /\ zlen pbg = zlen las /\
  oi_full G L S bpts background bvariance pts pobs ov pbg bvp 0 [] false = Ok (out, var) /\
  (forall k a b, znth pobs k = Ok (Fin a) -> znth pbg k = Ok (Fin b) -> (a - b <= 0)%Qc) /\
  znth background 0 = Ok (Fin 0) /\ znth out 0 = Ok (Fin o) /\ (0 < o)%Qc.
Proof. exact c61_refuted. Qed.
Print Assumptions C61_no_extrapolation_refuted.
Theorem C61_no_extrapolation_partial : forall (G : geo) (L : lib) (S : sfn) (t : ctype) (blas blos : list Qc) (bpts : points) (las los : list Qc) (pts : points)
  (loc : point -> val) (rho bg : point -> point -> val) (background bvariance pobs ov pbg bvp : vec) (mp : Z) (av0 : vec) (ex : bool),
  setting G L S t blas blos bpts las los pts loc rho bg -> zlen pbg = zlen las ->
  forall (r : Z -> Z -> Qc) (ratio d : Z -> Qc), known_obs pts (zlen las) rho ov bvp r ratio -> departures pobs pbg d ->
  forall out var y b v p1 pos g, oi_full G L S bpts background bvariance pts pobs ov pbg bvp mp av0 ex = Ok (out, var) -> ex = false -> las <> [] -> znth background y = Ok (Fin b) -> znth bvariance y = Ok v ->
  bpoint G t blas blos bpts y p1 pos -> known_cell pts bg p1 g ->
  exists U, chosen G t las los pts pobs pbg loc bg mp p1 pos U /\ (U = [] -> znth out y = Ok (Fin b)) /\
    (U <> [] -> exists z lo hi, znth out y = Ok (Fin (b + z)%Qc) /\ smallest U d lo /\ largest U d hi /\
       (hi <> 0%Qc -> (z <= hi \/ z <= 0)%Qc) /\ (lo <> 0%Qc -> (lo <= z \/ 0 <= z)%Qc)).
Proof. exact c61_partial'. Qed.
Print Assumptions C61_no_extrapolation_partial.
(** missing from C61: the bound when the departure extreme is exactly zero *)
Example C61_example :
  setting G0 L0 (sf0 (qz 10)) Cartesian (zeros [2]) (map qz [2]) (xpts [2]) (zeros [0; 1]) (map qz [0; 1]) (xpts [0; 1]) (fun _ => Fin (qz 10)) kern kern /\
  known_obs (xpts [0; 1]) 2 kern [fz 0; fz 0] [fz 1; fz 1] r01 (fun _ => 0%Qc) /\ departures [fz 1; fz 5] [fz 2; fz 2] d01 /\ d01 0 = qz (-1) /\ d01 1 = qz 3 /\
  oi_full G0 L0 (sf0 (qz 10)) (xpts [2]) [fz 7] [fz 4] (xpts [0; 1]) [fz 1; fz 5] [fz 0; fz 0] [fz 2; fz 2] [fz 1; fz 1] 0 [] false = Ok ([fq (26 # 3)], [fq (224 # 75)]).
Proof.
  split; [apply setting0; pts_now|]. split; [apply ex_obs; [|pts_now]; two_now; exists 0%Qc, 1%Qc; repeat split; try discriminate; vcalc|].
  split; [exact ex_dep|]. split; [reflexivity|]. split; [reflexivity|]. vcalc.
Qed.

(** C62: the full Grid version returns the analysis and its variance on the grid.  False without observations. *)
Theorem C62_full_grid_refuted : exists G L S t Y X lats lons g las los pts loc rho bg background bvariance,
  gsetting G L S t Y X lats lons g las los pts loc rho bg /\ rect Y X background /\ rect Y X bvariance /\ points_size pts = 0 /\
  oi_full_grid G L S g background bvariance pts [] [] [] [] 0 true = UB.
Proof. exact c62_refuted. Qed.
Print Assumptions C62_full_grid_refuted.
Theorem C62_full_grid_partial : forall (G : geo) (L : lib) (S : sfn) (t : ctype) (Y X : Z) (lats lons : list (list Qc)) (g : grid) (las los : list Qc) (pts : points)
  (loc : point -> val) (rho bg : point -> point -> val) (background bvariance : vec2) (pobs ov pbg bvp pratios : vec) (mp : Z) (ex : bool),
  gsetting G L S t Y X lats lons g las los pts loc rho bg ->
  rect Y X background -> rect Y X bvariance -> 0 <= mp -> zlen pobs = zlen las -> zlen ov = zlen las -> zlen pbg = zlen las -> zlen bvp = zlen las -> las <> [] ->
  ((exists out av, oi_full_grid G L S g background bvariance pts pobs ov pbg bvp mp ex = Ok (out, av) /\ rect Y X out /\ rect Y X av) \/
   oi_full_grid G L S g background bvariance pts pobs ov pbg bvp mp ex = Abort) /\
  (forall r ratio, known_obs pts (zlen las) rho ov bvp r ratio ->
     (forall U c, NoDup U -> (forall k, In k U -> 0 <= k < zlen las) -> (0 <= tot U (fun k => tot U (fun j => c k * c j * r k j)))%Qc) ->
     (forall k, 0 <= k < zlen las -> (0 < ratio k)%Qc) ->
     exists out av, oi_full_grid G L S g background bvariance pts pobs ov pbg bvp mp ex = Ok (out, av) /\ rect Y X out /\ rect Y X av).
Proof. exact c62_partial'. Qed.
Print Assumptions C62_full_grid_partial.
(** missing from C62: an empty observation set (the analysis variance is then read before it is written) *)
Example C62_example :
  gsetting G0 L0 (sf0 (qz 10)) Cartesian 2 2 [[qz 0; qz 0]; [qz 1; qz 1]] [[qz 0; qz 1]; [qz 0; qz 1]] grid22 (zeros [0; 1]) (map qz [0; 1]) (xpts [0; 1]) (fun _ => Fin (qz 10)) kern kern /\
  known_obs (xpts [0; 1]) 2 kern [fz 1; fz 1] [fz 1; fz 1] r01 (fun _ => 1%Qc) /\ (0 < 1)%Qc /\
  (forall U c, NoDup U -> (forall k, In k U -> 0 <= k < 2) -> (0 <= tot U (fun k => tot U (fun j => c k * c j * r01 k j)))%Qc) /\
  oi_full_grid G0 L0 (sf0 (qz 10)) grid22 [[fz 7; fz 8]; [fz 9; NaN]] [[fz 3; fz 3]; [fz 3; fz 3]] (xpts [0; 1]) [fz 1; fz 5] [fz 1; fz 1] [fz 2; fz 2] [fz 1; fz 1] 0 true
    = Ok ([[fq (104 # 15); fq (139 # 15)]; [fq (134 # 15); NaN]], [[fq (7 # 5); fq (7 # 5)]; [fq (7 # 5); fz 3]]).
Proof.
  split; [apply gsetting0; [grid_now|pts_now]|]. split; [apply ex_obs; [|pts_now]; two_now; exists 1%Qc, 1%Qc; repeat split; try discriminate; vcalc|].
  split; [reflexivity|]. split; [exact ex_valid|]. vcalc.
Qed.

(** C79: the analysis variance lies between 0 and the background variance *)
Theorem C79_variance_reduced : forall (G : geo) (L : lib) (S : sfn) (t : ctype) (blas blos : list Qc) (bpts : points) (las los : list Qc) (pts : points)
  (loc : point -> val) (rho bg : point -> point -> val) (background bvariance pobs ov pbg bvp : vec) (mp : Z) (av0 : vec) (ex : bool),
  setting G L S t blas blos bpts las los pts loc rho bg -> zlen pbg = zlen las ->
  forall (r : Z -> Z -> Qc) (ratio d : Z -> Qc), known_obs pts (zlen las) rho ov bvp r ratio -> departures pobs pbg d ->
  forall out var y b v p1 pos g, oi_full G L S bpts background bvariance pts pobs ov pbg bvp mp av0 ex = Ok (out, var) -> las <> [] -> znth background y = Ok (Fin b) -> znth bvariance y = Ok (Fin v) ->
  bpoint G t blas blos bpts y p1 pos -> known_cell pts bg p1 g ->
  valid_corr (zlen las) r g -> (forall k, 0 <= k < zlen las -> (0 <= ratio k)%Qc) -> (0 <= v)%Qc ->
  exists av, znth var y = Ok (Fin av) /\ (0 <= av <= v)%Qc.
Proof. exact c79_all'. Qed.
Print Assumptions C79_variance_reduced.
Example C79_example : valid_corr 2 r01 g2 /\
  (exists p1 pos, bpoint G0 Cartesian (zeros [2]) (map qz [2]) (xpts [2]) 0 p1 pos /\ known_cell (xpts [0; 1]) kern p1 g2) /\
  oi_full G0 L0 (sf0 (qz 10)) (xpts [2]) [fz 7] [fz 4] (xpts [0; 1]) [fz 1; fz 5] [fz 0; fz 0] [fz 2; fz 2] [fz 1; fz 1] 0 [] true = Ok ([fq (26 # 3)], [fq (224 # 75)]).
Proof.
  split; [exact ex_valid_g|]. split; [|vcalc]. do 2 eexists. split; [split; [cbn; reflexivity|exists (qz 0), (qz 2); repeat split]|].
  apply ex_cell; [pts_now|reflexivity].
Qed.

(** C80: the analysis fits an error-free observation at the background point exactly *)
Theorem C80_exact_at_observation : forall (G : geo) (L : lib) (S : sfn) (t : ctype) (blas blos : list Qc) (bpts : points) (las los : list Qc) (pts : points)
  (loc : point -> val) (rho bg : point -> point -> val) (background bvariance pobs ov pbg bvp : vec) (mp : Z) (av0 : vec) (ex : bool),
  setting G L S t blas blos bpts las los pts loc rho bg -> zlen pbg = zlen las ->
  forall (r : Z -> Z -> Qc) (ratio d : Z -> Qc), known_obs pts (zlen las) rho ov bvp r ratio -> departures pobs pbg d ->
  forall out var y b v p1 pos g m, oi_full G L S bpts background bvariance pts pobs ov pbg bvp mp av0 ex = Ok (out, var) -> mp = 0 -> znth background y = Ok (Fin b) -> znth bvariance y = Ok (Fin v) ->
  bpoint G t blas blos bpts y p1 pos -> known_cell pts bg p1 g ->
  usable G t las los pts pobs pbg loc bg p1 pos m -> (forall j, usable G t las los pts pobs pbg loc bg p1 pos j -> g j = r m j) -> ratio m = 0%Qc ->
  znth out y = Ok (Fin (b + d m)%Qc) /\ znth var y = Ok (Fin (v * (1 - g m))%Qc).
Proof. exact c80_all'. Qed.
Print Assumptions C80_exact_at_observation.
Example C80_example :
  setting G0 L0 (sf0 (qz 10)) Cartesian (zeros [1]) (map qz [1]) (xpts [1]) (zeros [0; 1]) (map qz [0; 1]) (xpts [0; 1]) (fun _ => Fin (qz 10)) kern kern /\
  (exists p1 pos, bpoint G0 Cartesian (zeros [1]) (map qz [1]) (xpts [1]) 0 p1 pos /\
     usable G0 Cartesian (zeros [0; 1]) (map qz [0; 1]) (xpts [0; 1]) [fz 1; fz 5] [fz 2; fz 2] (fun _ => Fin (qz 10)) kern p1 pos 1 /\
     forall k pk, points_get (xpts [0; 1]) k = Ok pk -> kern p1 pk = Fin (r01 1 k)) /\
  oi_full G0 L0 (sf0 (qz 10)) (xpts [1]) [fz 7] [fz 4] (xpts [0; 1]) [fz 1; fz 5] [fz 1; fz 0] [fz 2; fz 2] [fz 1; fz 1] 0 [] true = Ok ([fz 10], [fz 0]).
Proof.
  split; [apply setting0; pts_now|]. split; [|vcalc]. do 2 eexists. split; [split; [cbn; reflexivity|exists (qz 0), (qz 1); repeat split]|]. split.
  - do 4 eexists. split; [exists (qz 0), (qz 1); repeat split|]. split; [vm_compute; intuition discriminate|]. split; [cbn; reflexivity|].
    split; [reflexivity|]. split; [reflexivity|]. vm_compute. reflexivity.
  - intros k pk Hk. assert (R : 0 <= k < 2).
    { unfold points_get in Hk. destruct (znth (s_lats (xpts [0; 1])) k) eqn:E; try discriminate. pose proof (znth_range _ _ _ E) as RR. change (0 <= k < 2) in RR. exact RR. }
    assert (k = 0 \/ k = 1) as [-> | ->] by lia; cbn in Hk; injection Hk as <-; reflexivity.
Qed.

(** C81: the order of the observations does not matter *)
Theorem C81_observation_order : forall (G : geo) (L : lib) (S : sfn) (t : ctype) (blas blos : list Qc) (bpts : points) (las los las' los' : list Qc) (pts pts' : points)
  (loc : point -> val) (rho bg : point -> point -> val) (background bvariance pobs ov pbg bvp pobs' ov' pbg' bvp' : vec) (av0 : vec) (ex : bool) (f h : Z -> Z),
  setting G L S t blas blos bpts las los pts loc rho bg -> setting G L S t blas blos bpts las' los' pts' loc rho bg -> zlen las' = zlen las ->
  reordered (zlen las) f h pts pts' [pobs; ov; pbg; bvp] [pobs'; ov'; pbg'; bvp'] -> zlen pbg = zlen las ->
  forall out var out' var' r ratio d g,
  oi_full G L S bpts background bvariance pts pobs ov pbg bvp 0 av0 ex = Ok (out, var) ->
  oi_full G L S bpts background bvariance pts' pobs' ov' pbg' bvp' 0 av0 ex = Ok (out', var') ->
  known_obs pts (zlen las) rho ov bvp r ratio -> departures pobs pbg d -> known_bg pts bpts (zlen blas) bg g ->
  out' = out /\ var' = var.
Proof. exact c81_all'. Qed.
Print Assumptions C81_observation_order.
Example C81_example :
  reordered 2 (fun k => 1 - k) (fun k => 1 - k) (xpts [0; 1]) (xpts [1; 0]) [[fz 1; fz 5]; [fz 1; fz 2]; [fz 2; fz 2]; [fz 1; fz 1]] [[fz 5; fz 1]; [fz 2; fz 1]; [fz 2; fz 2]; [fz 1; fz 1]] /\
  oi_full G0 L0 (sf0 (qz 10)) (xpts [2; 3]) [fz 7; fz 8] [fz 4; fz 4] (xpts [1; 0]) [fz 5; fz 1] [fz 2; fz 1] [fz 2; fz 2] [fz 1; fz 1] 0 [] true =
  oi_full G0 L0 (sf0 (qz 10)) (xpts [2; 3]) [fz 7; fz 8] [fz 4; fz 4] (xpts [0; 1]) [fz 1; fz 5] [fz 1; fz 2] [fz 2; fz 2] [fz 1; fz 1] 0 [] true.
Proof.
  split; [|vcalc]. split; [intros; lia|]. split; [intros; lia|]. split; [two_now; reflexivity|].
  repeat constructor; two_now; reflexivity.
Qed.

(** C82: the Points and Grid versions *)
Theorem C82_points : forall (G : geo) (L : lib) (S : sfn) (t : ctype) (blas blos : list Qc) (bpts : points) (las los : list Qc) (pts : points)
  (loc : point -> val) (rho bg : point -> point -> val) (background pobs pratios pbg : vec) (mp : Z) (ex : bool),
  setting G L S t blas blos bpts las los pts loc rho bg -> zlen pbg = zlen las ->
  forall out r ratio d, oi_points G L S bpts background pts pobs pratios pbg mp ex = Ok out ->
  known_ratios pts (zlen las) rho pratios r ratio -> departures pobs pbg d ->
  zlen out = zlen background /\
  forall y b p1 pos g, znth background y = Ok (Fin b) -> bpoint G t blas blos bpts y p1 pos -> known_cell pts bg p1 g ->
  exists U o w, chosen G t las los pts pobs pbg loc bg mp p1 pos U /\ znth out y = Ok o /\ analysis U r ratio g d ex b (Fin 1) o w.
Proof. exact c82_points'. Qed.
Print Assumptions C82_points.
Theorem C82_grid : forall (G : geo) (L : lib) (S : sfn) (t : ctype) (Y X : Z) (lats lons : list (list Qc)) (g : grid) (las los : list Qc) (pts : points)
  (loc : point -> val) (rho bg : point -> point -> val) (background bvariance : vec2) (pobs ov pbg bvp pratios : vec) (mp : Z) (ex : bool),
  gsetting G L S t Y X lats lons g las los pts loc rho bg ->
  forall out r ratio d, oi_grid G L S g background pts pobs pratios pbg mp ex = Ok out -> rect Y X background -> zlen pbg = zlen las ->
  known_ratios pts (zlen las) rho pratios r ratio -> departures pobs pbg d ->
  rect Y X out /\
  (exists P o, to_points g = Ok P /\ oi_points G L S P (concat background) pts pobs pratios pbg mp ex = Ok o /\ concat out = o) /\
  forall y x b p1 pos c, get2 background y x = Ok (Fin b) -> grid_get g y x = Ok p1 -> grid_at G t lats lons y x pos -> known_cell pts bg p1 c ->
  exists U o w, chosen G t las los pts pobs pbg loc bg mp p1 pos U /\ get2 out y x = Ok o /\ analysis U r ratio c d ex b (Fin 1) o w.
Proof. exact c82_grid'. Qed.
Print Assumptions C82_grid.
Theorem C82_full_grid : forall (G : geo) (L : lib) (S : sfn) (t : ctype) (Y X : Z) (lats lons : list (list Qc)) (g : grid) (las los : list Qc) (pts : points)
  (loc : point -> val) (rho bg : point -> point -> val) (background bvariance : vec2) (pobs ov pbg bvp pratios : vec) (mp : Z) (ex : bool),
  gsetting G L S t Y X lats lons g las los pts loc rho bg ->
  forall out av r ratio d, oi_full_grid G L S g background bvariance pts pobs ov pbg bvp mp ex = Ok (out, av) ->
  rect Y X background -> rect Y X bvariance -> zlen pbg = zlen las -> zlen bvp = zlen las -> las <> [] ->
  known_obs pts (zlen las) rho ov bvp r ratio -> departures pobs pbg d ->
  rect Y X out /\ rect Y X av /\
  (forall y x b, get2 background y x = Ok b -> is_valid b = false -> get2 out y x = Ok b /\ get2 av y x = get2 bvariance y x) /\
  forall y x b v p1 pos c, get2 background y x = Ok (Fin b) -> get2 bvariance y x = Ok v -> grid_get g y x = Ok p1 -> grid_at G t lats lons y x pos -> known_cell pts bg p1 c ->
  exists U o w, chosen G t las los pts pobs pbg loc bg mp p1 pos U /\ get2 out y x = Ok o /\ get2 av y x = Ok w /\ analysis U r ratio c d ex b v o w.
Proof. exact c82_full_grid'. Qed.
Print Assumptions C82_full_grid.
Example C82_example :
  oi_points G0 L0 (sf0 (qz 10)) (xpts [2; 50]) [fz 7; fz 8] (xpts [0; 1]) [fz 1; fz 5] [fz 1; fz 1] [fz 2; fz 2] 0 true = Ok [fq (192 # 25); fz 8] /\
  known_ratios (xpts [0; 1]) 2 kern [fz 1; fz 1] r01 (fun _ => 1%Qc) /\
  oi_grid G0 L0 (sf0 (qz 10)) grid22 [[fz 7; fz 8]; [fz 9; NaN]] (xpts [0; 1]) [fz 1; fz 5] [fz 1; fz 1] [fz 2; fz 2] 0 true
    = Ok [[fq (104 # 15); fq (139 # 15)]; [fq (134 # 15); NaN]].
Proof.
  split; [vcalc|]. split; [|vcalc]. split; [|two_now; reflexivity].
  apply (ex_obs [fz 1; fz 1] [fz 1; fz 1] (fun _ => 1%Qc)); [|pts_now]. two_now; exists 1%Qc, 1%Qc; repeat split; try discriminate; vcalc.
Qed.

(** C83: sizes that do not fit raise invalid_argument.  Not all of them do. *)
Theorem C83_sizes_refuted :
  (exists G L S t blas blos bpts las los pts loc rho bg background bvariance pobs ov pbg bvp,
     setting G L S t blas blos bpts las los pts loc rho bg /\ zlen pbg <> points_size pts /\
     oi_full G L S bpts background bvariance pts pobs ov pbg bvp 0 [] true = UB /\
     oi_points G L S bpts background pts pobs ov pbg 0 true = UB) /\
  (exists G L S t Y X lats lons g las los pts loc rho bg background bvariance pobs ov pbg bvp,
     gsetting G L S t Y X lats lons g las los pts loc rho bg /\ rect Y X background /\ zlen bvariance <> Y /\
     oi_full_grid G L S g background bvariance pts pobs ov pbg bvp 0 true = UB).
Proof. exact c83_refuted. Qed.
Print Assumptions C83_sizes_refuted.
Theorem C83_sizes_points_partial : forall G L S bpts background bvariance pts pobs ov pbg bvp mp av0 ex,
  (mp < 0 \/ points_type bpts <> points_type pts \/ zlen background <> points_size bpts \/ zlen bvariance <> zlen background \/
   zlen pobs <> points_size pts \/ zlen ov <> points_size pts \/ zlen bvp <> points_size pts ->
   oi_full G L S bpts background bvariance pts pobs ov pbg bvp mp av0 ex = Throw InvalidArgument) /\
  (mp < 0 \/ points_type bpts <> points_type pts \/ zlen background <> points_size bpts \/
   zlen pobs <> points_size pts \/ zlen ov <> points_size pts ->
   oi_points G L S bpts background pts pobs ov pbg mp ex = Throw InvalidArgument).
Proof. exact c83_partial. Qed.
Print Assumptions C83_sizes_points_partial.
Theorem C83_sizes_grid_partial : forall G L S t Y X lats lons g background bvariance pts pobs ov pbg bvp mp ex, is_grid G t Y X lats lons g -> background <> [] ->
  (mp < 0 \/ t <> points_type pts \/ zlen background <> Y \/ (exists r, znth background 0 = Ok r /\ zlen r <> X) \/
   zlen pobs <> points_size pts \/ zlen ov <> points_size pts \/ zlen pbg <> points_size pts ->
   oi_full_grid G L S g background bvariance pts pobs ov pbg bvp mp ex = Throw InvalidArgument /\
   oi_grid G L S g background pts pobs ov pbg mp ex = Throw InvalidArgument).
Proof. exact c83_grid. Qed.
Print Assumptions C83_sizes_grid_partial.
(** missing from C83: the background at the observations (Points versions), the background variances (full Grid version) *)
Example C83_example :
  oi_full G0 L0 (sf0 (qz 10)) (xpts [2; 50]) [fz 7; fz 8] [fz 4] (xpts [0; 1]) [fz 1; fz 5] [fz 1; fz 1] [fz 2; fz 2] [fz 1; fz 1] 0 [] true = Throw InvalidArgument /\
  oi_grid G0 L0 (sf0 (qz 10)) grid22 [[fz 7; fz 8]; [fz 9; NaN]] (xpts [0; 1]) [fz 1; fz 5] [fz 1; fz 1] [fz 2] 0 true = Throw InvalidArgument /\ points_size (xpts [0; 1]) = 2.
Proof. repeat split; vm_compute; reflexivity. Qed.

(** C84: valid correlations and positive observation errors never abort the program *)
Theorem C84_always_returns : forall (G : geo) (L : lib) (S : sfn) (t : ctype) (blas blos : list Qc) (bpts : points) (las los : list Qc) (pts : points)
  (loc : point -> val) (rho bg : point -> point -> val) (background bvariance pobs ov pbg bvp : vec) (mp : Z) (av0 : vec) (ex : bool),
  setting G L S t blas blos bpts las los pts loc rho bg -> zlen pbg = zlen las ->
  0 <= mp -> zlen background = zlen blas -> zlen bvariance = zlen blas -> zlen pobs = zlen las -> zlen ov = zlen las -> zlen bvp = zlen las ->
  forall r ratio, known_obs pts (zlen las) rho ov bvp r ratio ->
  (forall U c, NoDup U -> (forall k, In k U -> 0 <= k < zlen las) -> (0 <= tot U (fun k => tot U (fun j => c k * c j * r k j)))%Qc) ->
  (forall k, 0 <= k < zlen las -> (0 < ratio k)%Qc) ->
  exists out var, oi_full G L S bpts background bvariance pts pobs ov pbg bvp mp av0 ex = Ok (out, var) /\ zlen out = zlen background /\ (las <> [] -> zlen var = zlen background).
Proof. exact c84_all'. Qed.
Print Assumptions C84_always_returns.
Example C84_example :
  (forall U c, NoDup U -> (forall k, In k U -> 0 <= k < 2) -> (0 <= tot U (fun k => tot U (fun j => c k * c j * r01 k j)))%Qc) /\
  known_obs (xpts [0; 1]) 2 kern [fz 1; fz 1] [fz 1; fz 1] r01 (fun _ => 1%Qc) /\
  oi_full G0 L0 (sf0 (qz 10)) (xpts [2]) [fz 7] [fz 4] (xpts [0; 0]) [fz 1; fz 5] [fz 0; fz 0] [fz 2; fz 2] [fz 1; fz 1] 0 [] true = Abort.
Proof.
  split; [exact ex_valid|]. split; [|vm_compute; reflexivity]. apply ex_obs; [|pts_now]. two_now; exists 1%Qc, 1%Qc; repeat split; try discriminate; vcalc.
Qed.
