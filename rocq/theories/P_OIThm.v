(** C57-C62 and C79-C84 in closed form. *)
From Coq Require Import Permutation.
From Verif Require Import Base QcTac ListLib M_Geo S_Geo S_Near M_OI S_OI P_OIProps P_OITotal P_OIGrid P_OIPerm.
Local Open Scope Z_scope.

Lemma c57_all' : forall (G : geo) (L : lib) (S : sfn) (t : ctype) (blas blos : list Qc) (bpts : points) (las los : list Qc) (pts : points)
  (loc : point -> val) (rho bg : point -> point -> val) (background bvariance pobs ov pbg bvp : vec) (mp : Z) (av0 : vec) (ex : bool),
  setting G L S t blas blos bpts las los pts loc rho bg -> zlen pbg = zlen las ->
  (forall out var, oi_full G L S bpts background bvariance pts pobs ov pbg bvp mp av0 ex = Ok (out, var) ->
     zlen out = zlen background /\ (las = [] -> out = background) /\
     (forall y b, znth background y = Ok b -> is_valid b = false ->
        znth out y = Ok b /\ (las <> [] -> znth var y = znth bvariance y)) /\
     (forall y b p1 pos, znth background y = Ok b -> bpoint G t blas blos bpts y p1 pos -> (forall k, ~ usable G t las los pts pobs pbg loc bg p1 pos k) ->
        znth out y = Ok b /\ (las <> [] -> znth var y = znth bvariance y))) /\
  (0 <= mp -> zlen background = zlen blas -> zlen bvariance = zlen blas -> zlen pobs = zlen las -> zlen ov = zlen las -> zlen bvp = zlen las ->
   (forall y p1 pos k, bpoint G t blas blos bpts y p1 pos -> ~ usable G t las los pts pobs pbg loc bg p1 pos k) ->
   exists var, oi_full G L S bpts background bvariance pts pobs ov pbg bvp mp av0 ex = Ok (background, var) /\ (las <> [] -> var = bvariance)).
Proof. intros. eapply c57_all; eauto. Qed.
Lemma c58_all' : forall (G : geo) (L : lib) (S : sfn) (t : ctype) (blas blos : list Qc) (bpts : points) (las los : list Qc) (pts : points)
  (loc : point -> val) (rho bg : point -> point -> val) (background bvariance pobs ov pbg bvp : vec) (mp : Z) (av0 : vec) (ex : bool),
  setting G L S t blas blos bpts las los pts loc rho bg -> zlen pbg = zlen las ->
  forall (r : Z -> Z -> Qc) (ratio d : Z -> Qc), known_obs pts (zlen las) rho ov bvp r ratio -> departures pobs pbg d ->
  forall out var g, oi_full G L S bpts background bvariance pts pobs ov pbg bvp mp av0 ex = Ok (out, var) -> known_bg pts bpts (zlen blas) bg g -> (forall k, d k = 0%Qc) -> out = background.
Proof. intros. eapply c58_all; eauto. Qed.
Lemma c59_all' : forall (G : geo) (L : lib) (S : sfn) (t : ctype) (blas blos : list Qc) (bpts : points) (las los : list Qc) (pts : points)
  (loc : point -> val) (rho bg : point -> point -> val) (background bvariance pobs ov pbg bvp : vec) (mp : Z) (av0 : vec) (ex : bool),
  setting G L S t blas blos bpts las los pts loc rho bg -> zlen pbg = zlen las ->
  forall (r : Z -> Z -> Qc) (ratio d : Z -> Qc), known_obs pts (zlen las) rho ov bvp r ratio -> departures pobs pbg d ->
  forall out var y b v p1 pos g, oi_full G L S bpts background bvariance pts pobs ov pbg bvp mp av0 ex = Ok (out, var) -> znth background y = Ok (Fin b) -> znth bvariance y = Ok v ->
  bpoint G t blas blos bpts y p1 pos -> known_cell pts bg p1 g ->
  exists U o, chosen G t las los pts pobs pbg loc bg mp p1 pos U /\ znth out y = Ok o /\
    (las <> [] -> exists w, znth var y = Ok w /\ analysis U r ratio g d ex b v o w).
Proof. intros. eapply c59_all; eauto. Qed.
Lemma c60_all' : forall (G : geo) (L : lib) (S : sfn) (t : ctype) (blas blos : list Qc) (bpts : points) (las los : list Qc) (pts : points)
  (loc : point -> val) (rho bg : point -> point -> val) (background bvariance pobs ov pbg bvp : vec) (mp : Z) (av0 : vec) (ex : bool),
  setting G L S t blas blos bpts las los pts loc rho bg -> zlen pbg = zlen las ->
  forall (r : Z -> Z -> Qc) (ratio d : Z -> Qc), known_obs pts (zlen las) rho ov bvp r ratio -> departures pobs pbg d ->
  forall out var y b v p1 pos g k, oi_full G L S bpts background bvariance pts pobs ov pbg bvp mp av0 ex = Ok (out, var) -> znth background y = Ok (Fin b) -> znth bvariance y = Ok (Fin v) ->
  bpoint G t blas blos bpts y p1 pos -> known_cell pts bg p1 g -> (forall j, usable G t las los pts pobs pbg loc bg p1 pos j <-> j = k) ->
  r k k = 1%Qc -> (0 <= ratio k)%Qc -> (g k <= 1)%Qc ->
  exists inc, znth out y = Ok (Fin (b + inc)%Qc) /\ inc = (g k / (1 + ratio k) * d k)%Qc /\
    ((0 <= d k)%Qc -> (0 <= inc <= d k)%Qc) /\ ((d k <= 0)%Qc -> (d k <= inc <= 0)%Qc) /\
    exists av, znth var y = Ok (Fin av) /\ av = (v * (1 - g k * g k / (1 + ratio k)))%Qc /\ ((0 <= v)%Qc -> (0 <= av <= v)%Qc).
Proof. intros. eapply c60_all; eauto. Qed.
Lemma c61_partial' : forall (G : geo) (L : lib) (S : sfn) (t : ctype) (blas blos : list Qc) (bpts : points) (las los : list Qc) (pts : points)
  (loc : point -> val) (rho bg : point -> point -> val) (background bvariance pobs ov pbg bvp : vec) (mp : Z) (av0 : vec) (ex : bool),
  setting G L S t blas blos bpts las los pts loc rho bg -> zlen pbg = zlen las ->
  forall (r : Z -> Z -> Qc) (ratio d : Z -> Qc), known_obs pts (zlen las) rho ov bvp r ratio -> departures pobs pbg d ->
  forall out var y b v p1 pos g, oi_full G L S bpts background bvariance pts pobs ov pbg bvp mp av0 ex = Ok (out, var) -> ex = false -> las <> [] -> znth background y = Ok (Fin b) -> znth bvariance y = Ok v ->
  bpoint G t blas blos bpts y p1 pos -> known_cell pts bg p1 g ->
  exists U, chosen G t las los pts pobs pbg loc bg mp p1 pos U /\ (U = [] -> znth out y = Ok (Fin b)) /\
    (U <> [] -> exists z lo hi, znth out y = Ok (Fin (b + z)%Qc) /\ smallest U d lo /\ largest U d hi /\
       (hi <> 0%Qc -> (z <= hi \/ z <= 0)%Qc) /\ (lo <> 0%Qc -> (lo <= z \/ 0 <= z)%Qc)).
Proof. intros. eapply c61_partial; eauto. Qed.
Lemma c79_all' : forall (G : geo) (L : lib) (S : sfn) (t : ctype) (blas blos : list Qc) (bpts : points) (las los : list Qc) (pts : points)
  (loc : point -> val) (rho bg : point -> point -> val) (background bvariance pobs ov pbg bvp : vec) (mp : Z) (av0 : vec) (ex : bool),
  setting G L S t blas blos bpts las los pts loc rho bg -> zlen pbg = zlen las ->
  forall (r : Z -> Z -> Qc) (ratio d : Z -> Qc), known_obs pts (zlen las) rho ov bvp r ratio -> departures pobs pbg d ->
  forall out var y b v p1 pos g, oi_full G L S bpts background bvariance pts pobs ov pbg bvp mp av0 ex = Ok (out, var) -> las <> [] -> znth background y = Ok (Fin b) -> znth bvariance y = Ok (Fin v) ->
  bpoint G t blas blos bpts y p1 pos -> known_cell pts bg p1 g ->
  valid_corr (zlen las) r g -> (forall k, 0 <= k < zlen las -> (0 <= ratio k)%Qc) -> (0 <= v)%Qc ->
  exists av, znth var y = Ok (Fin av) /\ (0 <= av <= v)%Qc.
Proof. intros. eapply c79_all; eauto. Qed.
Lemma c80_all' : forall (G : geo) (L : lib) (S : sfn) (t : ctype) (blas blos : list Qc) (bpts : points) (las los : list Qc) (pts : points)
  (loc : point -> val) (rho bg : point -> point -> val) (background bvariance pobs ov pbg bvp : vec) (mp : Z) (av0 : vec) (ex : bool),
  setting G L S t blas blos bpts las los pts loc rho bg -> zlen pbg = zlen las ->
  forall (r : Z -> Z -> Qc) (ratio d : Z -> Qc), known_obs pts (zlen las) rho ov bvp r ratio -> departures pobs pbg d ->
  forall out var y b v p1 pos g m, oi_full G L S bpts background bvariance pts pobs ov pbg bvp mp av0 ex = Ok (out, var) -> mp = 0 -> znth background y = Ok (Fin b) -> znth bvariance y = Ok (Fin v) ->
  bpoint G t blas blos bpts y p1 pos -> known_cell pts bg p1 g ->
  usable G t las los pts pobs pbg loc bg p1 pos m -> (forall j, usable G t las los pts pobs pbg loc bg p1 pos j -> g j = r m j) -> ratio m = 0%Qc ->
  znth out y = Ok (Fin (b + d m)%Qc) /\ znth var y = Ok (Fin (v * (1 - g m))%Qc).
Proof. intros. eapply c80_all; eauto. Qed.
Lemma c84_all' : forall (G : geo) (L : lib) (S : sfn) (t : ctype) (blas blos : list Qc) (bpts : points) (las los : list Qc) (pts : points)
  (loc : point -> val) (rho bg : point -> point -> val) (background bvariance pobs ov pbg bvp : vec) (mp : Z) (av0 : vec) (ex : bool),
  setting G L S t blas blos bpts las los pts loc rho bg -> zlen pbg = zlen las ->
  0 <= mp -> zlen background = zlen blas -> zlen bvariance = zlen blas -> zlen pobs = zlen las -> zlen ov = zlen las -> zlen bvp = zlen las ->
  forall r ratio, known_obs pts (zlen las) rho ov bvp r ratio ->
  (forall U c, NoDup U -> (forall k, In k U -> 0 <= k < zlen las) -> (0 <= tot U (fun k => tot U (fun j => c k * c j * r k j)))%Qc) ->
  (forall k, 0 <= k < zlen las -> (0 < ratio k)%Qc) ->
  exists out var, oi_full G L S bpts background bvariance pts pobs ov pbg bvp mp av0 ex = Ok (out, var) /\ zlen out = zlen background /\ (las <> [] -> zlen var = zlen background).
Proof. intros. eapply c84_all; eauto. Qed.
Lemma c82_points' : forall (G : geo) (L : lib) (S : sfn) (t : ctype) (blas blos : list Qc) (bpts : points) (las los : list Qc) (pts : points)
  (loc : point -> val) (rho bg : point -> point -> val) (background pobs pratios pbg : vec) (mp : Z) (ex : bool),
  setting G L S t blas blos bpts las los pts loc rho bg -> zlen pbg = zlen las ->
  forall out r ratio d, oi_points G L S bpts background pts pobs pratios pbg mp ex = Ok out ->
  known_ratios pts (zlen las) rho pratios r ratio -> departures pobs pbg d ->
  zlen out = zlen background /\
  forall y b p1 pos g, znth background y = Ok (Fin b) -> bpoint G t blas blos bpts y p1 pos -> known_cell pts bg p1 g ->
  exists U o w, chosen G t las los pts pobs pbg loc bg mp p1 pos U /\ znth out y = Ok o /\ analysis U r ratio g d ex b (Fin 1) o w.
Proof. intros. eapply c82_points; eauto. Qed.
Lemma c82_grid' : forall (G : geo) (L : lib) (S : sfn) (t : ctype) (Y X : Z) (lats lons : list (list Qc)) (g : grid) (las los : list Qc) (pts : points)
  (loc : point -> val) (rho bg : point -> point -> val) (background bvariance : vec2) (pobs ov pbg bvp pratios : vec) (mp : Z) (ex : bool),
  gsetting G L S t Y X lats lons g las los pts loc rho bg ->
  forall out r ratio d, oi_grid G L S g background pts pobs pratios pbg mp ex = Ok out -> rect Y X background -> zlen pbg = zlen las ->
  known_ratios pts (zlen las) rho pratios r ratio -> departures pobs pbg d ->
  rect Y X out /\
  (exists P o, to_points g = Ok P /\ oi_points G L S P (concat background) pts pobs pratios pbg mp ex = Ok o /\ concat out = o) /\
  forall y x b p1 pos c, get2 background y x = Ok (Fin b) -> grid_get g y x = Ok p1 -> grid_at G t lats lons y x pos -> known_cell pts bg p1 c ->
  exists U o w, chosen G t las los pts pobs pbg loc bg mp p1 pos U /\ get2 out y x = Ok o /\ analysis U r ratio c d ex b (Fin 1) o w.
Proof. intros. eapply c82_grid; eauto. Qed.
Lemma c82_full_grid' : forall (G : geo) (L : lib) (S : sfn) (t : ctype) (Y X : Z) (lats lons : list (list Qc)) (g : grid) (las los : list Qc) (pts : points)
  (loc : point -> val) (rho bg : point -> point -> val) (background bvariance : vec2) (pobs ov pbg bvp pratios : vec) (mp : Z) (ex : bool),
  gsetting G L S t Y X lats lons g las los pts loc rho bg ->
  forall out av r ratio d, oi_full_grid G L S g background bvariance pts pobs ov pbg bvp mp ex = Ok (out, av) ->
  rect Y X background -> rect Y X bvariance -> zlen pbg = zlen las -> zlen bvp = zlen las -> las <> [] ->
  known_obs pts (zlen las) rho ov bvp r ratio -> departures pobs pbg d ->
  rect Y X out /\ rect Y X av /\
  (forall y x b, get2 background y x = Ok b -> is_valid b = false -> get2 out y x = Ok b /\ get2 av y x = get2 bvariance y x) /\
  forall y x b v p1 pos c, get2 background y x = Ok (Fin b) -> get2 bvariance y x = Ok v -> grid_get g y x = Ok p1 -> grid_at G t lats lons y x pos -> known_cell pts bg p1 c ->
  exists U o w, chosen G t las los pts pobs pbg loc bg mp p1 pos U /\ get2 out y x = Ok o /\ get2 av y x = Ok w /\ analysis U r ratio c d ex b v o w.
Proof. intros. eapply c82_full_grid; eauto. Qed.
Lemma c62_partial' : forall (G : geo) (L : lib) (S : sfn) (t : ctype) (Y X : Z) (lats lons : list (list Qc)) (g : grid) (las los : list Qc) (pts : points)
  (loc : point -> val) (rho bg : point -> point -> val) (background bvariance : vec2) (pobs ov pbg bvp pratios : vec) (mp : Z) (ex : bool),
  gsetting G L S t Y X lats lons g las los pts loc rho bg ->
  rect Y X background -> rect Y X bvariance -> 0 <= mp -> zlen pobs = zlen las -> zlen ov = zlen las -> zlen pbg = zlen las -> zlen bvp = zlen las -> las <> [] ->
  ((exists out av, oi_full_grid G L S g background bvariance pts pobs ov pbg bvp mp ex = Ok (out, av) /\ rect Y X out /\ rect Y X av) \/
   oi_full_grid G L S g background bvariance pts pobs ov pbg bvp mp ex = Abort) /\
  (forall r ratio, known_obs pts (zlen las) rho ov bvp r ratio ->
     (forall U c, NoDup U -> (forall k, In k U -> 0 <= k < zlen las) -> (0 <= tot U (fun k => tot U (fun j => c k * c j * r k j)))%Qc) ->
     (forall k, 0 <= k < zlen las -> (0 < ratio k)%Qc) ->
     exists out av, oi_full_grid G L S g background bvariance pts pobs ov pbg bvp mp ex = Ok (out, av) /\ rect Y X out /\ rect Y X av).
Proof. intros. eapply c62_partial; eauto. Qed.
Lemma c81_all' : forall (G : geo) (L : lib) (S : sfn) (t : ctype) (blas blos : list Qc) (bpts : points) (las los las' los' : list Qc) (pts pts' : points)
  (loc : point -> val) (rho bg : point -> point -> val) (background bvariance pobs ov pbg bvp pobs' ov' pbg' bvp' : vec) (av0 : vec) (ex : bool) (f h : Z -> Z),
  setting G L S t blas blos bpts las los pts loc rho bg -> setting G L S t blas blos bpts las' los' pts' loc rho bg -> zlen las' = zlen las ->
  reordered (zlen las) f h pts pts' [pobs; ov; pbg; bvp] [pobs'; ov'; pbg'; bvp'] -> zlen pbg = zlen las ->
  forall out var out' var' r ratio d g,
  oi_full G L S bpts background bvariance pts pobs ov pbg bvp 0 av0 ex = Ok (out, var) ->
  oi_full G L S bpts background bvariance pts' pobs' ov' pbg' bvp' 0 av0 ex = Ok (out', var') ->
  known_obs pts (zlen las) rho ov bvp r ratio -> departures pobs pbg d -> known_bg pts bpts (zlen blas) bg g ->
  out' = out /\ var' = var.
Proof. intros. eapply (c81_all G L S t blas blos bpts las los las' los' pts pts' loc rho bg background bvariance pobs ov pbg bvp pobs' ov' pbg' bvp' av0 ex f h); eassumption. Qed.
