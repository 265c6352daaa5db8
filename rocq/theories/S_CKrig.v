(** Specification of the client's kriging calibrator. *)
From Verif Require Import Base M_Stat S_Stat M_COpt M_CUtil S_CUtil M_CCal S_CCal S_CTree S_CCal2 M_CKrig.
Local Open Scope Z_scope.

(** a location with coordinates and elevation *)
Definition settled (l : location) (la lo el : Qc) : Prop := l_lat l = Fin la /\ l_lon l = Fin lo /\ l_elev l = Fin el /\ on_earth la lo /\ el <> missing_number.
Definition unsettled (l : location) : Prop := missing (l_lat l) \/ missing (l_lon l) \/ missing (l_elev l).
Definition metric_like (D : Qc -> Qc -> Qc -> Qc -> Qc) : Prop := (forall a b c d, 0 <= D a b c d)%Qc /\ (forall a b c d, D a b c d = D c d a b) /\ zero_at_itself D.
Definition exponential (f : Qc -> Qc) : Prop := f 0%Qc = 1%Qc /\ (forall x, 0 < f x)%Qc /\ (forall x y, x <= y -> f x <= f y)%Qc.
Definition on_numbers (f : Qc -> Qc) (v : val) : val := match v with Fin q => Fin (f q) | PInf => PInf | NInf => fz 0 | NaN => NaN end.
(** the options as numbers *)
Definition options (k : kriging) (efold radius : Qc) (height : option Qc) : Prop :=
  k_efold k = Fin efold /\ k_radius k = Fin radius /\ k_elev k = match height with Some m => Fin m | None => Fin missing_number end /\ (forall m, height = Some m -> m <> missing_number) /\ (0 < efold)%Qc.
(** how the influence falls off with the distance d: Cressman (which gives 0 at the scale) or Barnes *)
Definition falloff (cress : bool) (exq : Qc -> Qc) (scale d : Qc) : Qc :=
  (if cress then (scale * scale - d * d) / (scale * scale + d * d) else exq (- (d * d) / (qz 2 * scale * scale)))%Qc.
(** the height is not limited if there is no scale for it *)
Definition covariance (cress : bool) (exq : Qc -> Qc) (efold radius : Qc) (height : option Qc) (h v : Qc) : Qc :=
  if qltb h radius && match height with Some m => qltb v m | None => true end && (negb cress || qleb h efold) then
    (falloff cress exq efold h * match height with Some m => falloff cress exq m v | None => 1 end)%Qc
  else 0%Qc.
(** the difference of elevations *)
Definition apart (a b : Qc) : Qc := if qltb (a - b) 0 then (- (a - b))%Qc else (a - b)%Qc.
(** the covariance of two locations *)
Definition covary (D : Qc -> Qc -> Qc -> Qc -> Qc) (cov : Qc -> Qc -> Qc) (a b : location) (c : Qc) : Prop :=
  exists la lo el la' lo' el', settled a la lo el /\ settled b la' lo' el' /\ c = cov (D la lo la' lo') (apart el el').
Definition located_at (lats lons elevs : list vec) (y x : Z) (l : location) : Prop := get2 lats y x = Ok (l_lat l) /\ get2 lons y x = Ok (l_lon l) /\ get2 elevs y x = Ok (l_elev l).
(** systems of linear equations *)
Definition dot (n : Z) (a b : Z -> Qc) : Qc := qsum (map (fun i => a i * b i)%Qc (zrange 0 n)).
Definition solves (n : Z) (m : Z -> Z -> Qc) (w s : Z -> Qc) : Prop := forall i, 0 <= i < n -> dot n (m i) w = s i.
(** the matrix of the stations: their covariances, reduced by a constant factor except for those with themselves *)
Definition reduced (c : Z -> Z -> Qc) (i j : Z) : Qc := if i =? j then 1%Qc else (c i j * Q2Qc (828 # 1000))%Qc.
(** what a function called to invert matrices of numbers gives, if it succeeds: B with A B = 1 *)
Definition inverse_of (n : Z) (a : list vec) (b : list vec) : Prop := rect n n b /\ exists p q : Z -> Z -> Qc,
  (forall i j, 0 <= i < n -> 0 <= j < n -> get2 a i j = Ok (Fin (p i j)) /\ get2 b i j = Ok (Fin (q i j))) /\
  forall i j, 0 <= i < n -> 0 <= j < n -> dot n (p i) (fun k => q k j) = if i =? j then 1%Qc else 0%Qc.
(** a part of the times, within the window, at which the value is present and in the range; 1 if none is present *)
Definition in_window (w nt t tt : Z) : Prop := 0 <= tt < nt /\ t - w <= tt <= t + w.
Definition share (vs : list Qc) (lo hi : Qc) : Qc := match vs with [] => 1 | _ => qlen (filter (fun v => qleb lo v && qleb v hi) vs) / qlen vs end%Qc.
(** the bias of a station: 0 (or a factor of 1) without parameters *)
Definition station_bias (op : kop) (p : vec) (b : Qc) : Prop :=
  (p = [] /\ b = 0%Qc) \/ exists q rest, p = Fin q :: rest /\ q <> missing_number /\ b = match op with KMultiply | KDivide => (q - 1)%Qc | _ => q end.
(** the value after a correction with the bias b (of a mean of 0, or of factors of 1) *)
Definition corrected (op : kop) (q b : Qc) : Qc := match op with KAdd => q + b | KSubtract => q - b | KMultiply => q * (1 + b) | KDivide => q / (1 + b) end%Qc.
(** what belongs to a value: covariances c of the stations with each other and g with the place, biases b of the stations *)
Definition kriged (op : kop) (n : Z) (c : Z -> Z -> Qc) (g b : Z -> Qc) (q : Qc) (w : val) : Prop :=
  ((forall i, 0 <= i < n -> g i = 0%Qc) -> w = Fin q) /\
  exists weights, solves n (reduced c) weights g /\ ((exists i, 0 <= i < n /\ g i <> 0%Qc) -> dot n b weights <> missing_number -> w = Fin (corrected op q (dot n b weights))).
(** the function called inverts the matrix of the stations *)
Definition inverts (inv : list vec -> list vec) (n : Z) (c : Z -> Z -> Qc) : Prop :=
  forall M, rect n n M -> (forall i j, 0 <= i < n -> 0 <= j < n -> get2 M i j = Ok (Fin (reduced c i j))) -> inverse_of n M (inv M).
(** stations, grid and fields as the calibrator gets them: covariances c of the stations with each other and g with the places, biases b of the stations at each time *)
Definition kriging_case (D : Qc -> Qc -> Qc -> Qc -> Qc) (exq : Qc -> Qc) (inv : list vec -> list vec) (k : kriging) (locs : list location) (pars : Z -> location -> vec)
    (lats lons elevs : list vec) (d : dims) (fs : list field) (c : Z -> Z -> Qc) (g : Z -> Z -> Z -> Qc) (b : Z -> Z -> Qc) : Prop :=
  metric_like D /\ exponential exq /\ shaped d fs /\ rect (d_y d) (d_x d) lats /\ rect (d_y d) (d_x d) lons /\ rect (d_y d) (d_x d) elevs /\ k_cross k = false /\
  (exists e r m, options k e r m /\
    (forall i j l l', znth locs i = Ok l -> znth locs j = Ok l' -> covary D (covariance (k_cressman k) exq e r m) l l' (c i j)) /\
    (forall y x l, located_at lats lons elevs y x l -> (unsettled l /\ forall i, g y x i = 0%Qc) \/ forall i a, znth locs i = Ok a -> covary D (covariance (k_cressman k) exq e r m) a l (g y x i))) /\
  inverts inv (zlen locs) c /\
  (forall t i l, 0 <= t < d_t d -> znth locs i = Ok l -> station_bias (k_op k) (pars t l) (b t i) /\ b t i <> missing_number).
(** the weights of the members up to one *)
Definition weight_until (wt : Z -> Qc) (e : Z) : Qc := fold_right Qcmult 1%Qc (map wt (zrange 0 (e + 1))).
(** the covariances with station k taken out *)
Definition others (k : Z) (c : Z -> Z -> Qc) (i j : Z) : Qc := if (i =? k) || (j =? k) then 0%Qc else c i j.
(** a forecast with the bias as it is trained *)
Definition adjusted (op : kop) (f b : Qc) : Qc := match op with KAdd => f + b | KSubtract => f - b | KMultiply => f * b | KDivide => f / b end%Qc.
