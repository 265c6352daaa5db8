(** Model of src/api/structure.cpp: the structure functions. *)
From Verif Require Import Base RBase M_Geo.

(** ** correlation functions, structure.cpp:26-86 *)
Inductive kind := Barnes | Soar | Toar | Powerlaw | Linear.
(** the common guard of barnes_rho, cressman_rho, soar_rho, toar_rho and powerlaw_rho *)
Definition guarded (dist length : rv) (f : rv) : rv :=
  if negb (r_valid length) || reqb length (rz 0) then rz 1
  else if negb (r_valid dist) then rz 0 else f.
Definition half_r : rv := RF (1 / 2)%R.
(** structure.cpp:26-34 *)
Definition barnes_rho (dist length : rv) : rv :=
  guarded dist length (let v := rdiv dist length in rexp (rmul (rmul (rneg half_r) v) v)).
(** structure.cpp:35-44 *)
Definition cressman_rho (dist length : rv) : rv :=
  guarded dist length
    (if rleb length dist then rz 0
     else rdiv (rsub (rmul length length) (rmul dist dist)) (radd (rmul length length) (rmul dist dist))).
(** structure.cpp:46-54 *)
Definition soar_rho (dist length : rv) : rv :=
  guarded dist length (let v := rdiv dist length in rmul (radd (rz 1) v) (rexp (rneg v))).
(** structure.cpp:56-64 *)
Definition toar_rho (dist length : rv) : rv :=
  guarded dist length
    (let v := rdiv dist length in
     rmul (radd (radd (rz 1) v) (rdiv (rmul v v) (rz 3))) (rexp (rneg v))).
(** structure.cpp:66-74 *)
Definition powerlaw_rho (dist length : rv) : rv :=
  guarded dist length
    (let v := rdiv dist length in rdiv (rz 1) (radd (rz 1) (rmul (rmul half_r v) v))).
(** structure.cpp:76-86; abs is the floating point one *)
Definition linear_rho (diff min_corr : rv) : rv :=
  if negb (r_valid min_corr) || rltb min_corr (rz 0) then rz 1
  else if negb (r_valid diff) then rz 0
  else
    let absdiff := rabs diff in
    let absdiff := if rltb (rz 1) absdiff then rz 1 else absdiff in
    rsub (rz 1) (rmul (rsub (rz 1) min_corr) absdiff).
Definition rho (k : kind) : rv -> rv -> rv :=
  match k with
  | Barnes => barnes_rho | Soar => soar_rho | Toar => toar_rho
  | Powerlaw => powerlaw_rho | Linear => linear_rho
  end.

(** ** the classes *)
(** BarnesStructure, SoarStructure, ToarStructure, PowerlawStructure and LinearStructure have the same
    members (include/gridpp.h:2143-2314) and the same code up to the correlation function, the
    expression for m_min_rho and localization_distance(float). *)
Record sbase := { b_kind : kind; b_grid : grid; b_spatial : bool;
                  b_h : vec2; b_v : vec2; b_w : vec2; b_min : rv }.
Inductive sfun :=
| SBase (s : sbase)
| SCressman (h v w : val)                                  (* include/gridpp.h:2317-2326 *)
| SMultiple (h v w : sfun)                                 (* include/gridpp.h:2126-2142 *)
| SCross (s : sfun) (dist : val).                          (* include/gridpp.h:2328-2344 *)

(** StructureFunction::default_min_rho, structure.cpp:5 (the float nearest to 0.0013 is taken to be 0.0013) *)
Definition default_min_rho : rv := RF (13 / 10000)%R.
(** Grid::Grid(), grid.cpp:6-11 *)
Definition empty_grid : grid :=
  {| g_lats := []; g_lons := []; g_elevs := []; g_lafs := []; g_X := 0; g_tree := empty_tree Geodetic |}.

(** m_min_rho from hmax: structure.cpp:155-158, 329-332, 479-482, 630-633, 777-780 *)
Definition min_rho_of (k : kind) (h hmax : rv) : rv :=
  let u := rdiv hmax h in
  if r_valid hmax then
    match k with
    | Barnes => rexp (rdiv (rmul u u) (rz (-2)))
    | Soar => rmul (radd (rz 1) u) (rexp (rdiv (rneg hmax) h))
    | Toar => rmul (radd (radd (rz 1) u) (rdiv (rmul u u) (rz 3))) (rexp (rdiv (rneg hmax) h))
    | Powerlaw => rdiv (rz 1) (radd (rz 1) (rmul half_r (rmul u u)))
    | Linear => default_min_rho
    end
  else default_min_rho.
(** XStructure(h, v, w, hmax), structure.cpp:143-167, 317-341, 467-491, 618-642, 765-789 *)
Definition mk_base (k : kind) (h v w hmax : val) : res sfun :=
  let bad x := negb (is_valid x) || vltb x (fz 0) in
  if is_valid hmax && vltb hmax (fz 0) then Throw InvalidArgument
  else if bad h then Throw InvalidArgument
  else if bad v then Throw InvalidArgument
  else if bad w then Throw InvalidArgument
  else Ok (SBase {| b_kind := k; b_grid := empty_grid; b_spatial := false;
                    b_h := [[h]]; b_v := [[v]]; b_w := [[w]];
                    b_min := min_rho_of k (v2r h) (v2r hmax) |}).
(** XStructure(grid, h, v, w, min_rho), structure.cpp:168-184, 342-358, 492-508, 643-659, 790-806 *)
Definition is_1x1 (v : vec2) : bool :=
  match v with [r] => zlen r =? 1 | _ => false end.
Definition mk_spatial (k : kind) (g : grid) (h v w : vec2) (min_rho : rv) : res sfun :=
  let s b := SBase {| b_kind := k; b_grid := g; b_spatial := b; b_h := h; b_v := v; b_w := w; b_min := min_rho |} in
  if is_1x1 h && is_1x1 v && is_1x1 w then Ok (s false)
  else
    '(Y, X) <- grid_size g ;;
    if negb (Y =? zlen h) || negb (Y =? zlen v) || negb (Y =? zlen w) then Throw InvalidArgument
    else
      h0 <- znth h 0 ;;
      if negb (X =? zlen h0) then Throw InvalidArgument
      else
        v0 <- znth v 0 ;;
        if negb (X =? zlen v0) then Throw InvalidArgument
        else
          w0 <- znth w 0 ;;
          if negb (X =? zlen w0) then Throw InvalidArgument
          else Ok (s true).
(** CressmanStructure(h, v, w), structure.cpp:7-12, 287-296 *)
Definition mk_cressman (h v w : val) : res sfun :=
  let bad x := negb (is_valid x) || vltb x (fz 0) in
  if bad h then Throw InvalidArgument
  else if bad v then Throw InvalidArgument
  else if bad w then Throw InvalidArgument
  else Ok (SCressman h v w).

(** clone(), structure.cpp:137-139, 268-270, 311-313, 442-444, 592-594, 743-745, 890-892, 939-941 *)
Fixpoint clone (s : sfun) : res sfun :=
  match s with
  | SBase b => mk_spatial (b_kind b) (b_grid b) (b_h b) (b_v b) (b_w b) (b_min b)
  | SCressman h v w => mk_cressman h v w
  | SMultiple h v w =>
      (* the constructor clones each part, structure.cpp:90-94 *)
      h' <- clone h ;; v' <- clone v ;; w' <- clone w ;; Ok (SMultiple h' v' w')
  | SCross s d =>
      if negb (is_valid d) || vltb d (fz 0) then Throw InvalidArgument
      else s' <- clone s ;; Ok (SCross s' d)
  end.
(** MultipleStructure(h, v, w), structure.cpp:90-94 *)
Definition mk_multiple (h v w : sfun) : res sfun := clone (SMultiple h v w).
(** CrossValidation(structure, dist), structure.cpp:910-916 *)
Definition mk_cross (s : sfun) (dist : val) : res sfun := clone (SCross s dist).

(** ** correlations *)
(** KDTree::calc_straight_distance, kdtree.cpp:189-194 *)
Definition straight (p q : point) : rv := rsqrt (v2r (pdist2 p q)).
(** localization_distance(float h), structure.cpp:280-282, 454-460, 604-610, 755-757, 902-904 *)
Definition loc_h (k : kind) (m h : rv) : rv :=
  match k with
  | Barnes => rmul (rsqrt (rmul (rz (-2)) (rlog m))) h
  | Soar =>
      let l := rlog m in let ll := rlog (rneg (rlog m)) in
      rmul (radd (rneg l) ll) h
  | Toar =>
      let l := rlog m in let ll := rlog (rneg (rlog m)) in
      rmul (radd (radd (rneg l) ll) (rmul half_r ll)) h
  | Powerlaw => rmul (rsqrt (rdiv (rmul (rz 2) (rsub (rz 1) m)) m)) h
  | Linear => rz 0
  end.
(** index of the scales used for a point: get_nearest_neighbour at the point; an empty answer is
    indexed out of range *)
Definition scale_index (G : geo) (b : sbase) (p : point) : res (Z * Z) :=
  o <- grid_nearest G (b_grid b) (p_lat p) (p_lon p) true ;;
  match o with None => UB | Some c => Ok c end.
(** localization_distance(Point), structure.cpp:271-279, 445-453, 595-603, 746-754, 893-901 *)
Definition loc_base (G : geo) (b : sbase) (p : point) : res rv :=
  if b_spatial b then
    c <- scale_index G b p ;; h <- get2 (b_h b) (fst c) (snd c) ;; Ok (loc_h (b_kind b) (b_min b) (v2r h))
  else h <- get2 (b_h b) 0 0 ;; Ok (loc_h (b_kind b) (b_min b) (v2r h)).
(** rho at horizontal distance hdist times the vertical and land fraction factors,
    structure.cpp:205-213, 219-227 and the same lines of the other classes, 299-308 *)
Definition times_factor (f : rv -> rv -> rv) (r : rv) (x1 x2 : val) (len : rv) : rv :=
  if is_valid x1 && is_valid x2 then rmul r (f (v2r (vsub x1 x2)) len) else r.
Definition product (f : rv -> rv -> rv) (hdist : rv) (p1 p2 : point) (h v w : rv) : rv :=
  let r := f hdist h in
  let r := times_factor f r (p_elev p1) (p_elev p2) v in
  times_factor f r (p_laf p1) (p_laf p2) w.
(** scales at the point, with the range checks of structure.cpp:190-198 *)
Definition scales (G : geo) (b : sbase) (p : point) : res (rv * rv * rv) :=
  c <- scale_index G b p ;;
  if zlen (b_h b) <? fst c then Throw RuntimeError
  else
    row <- znth (b_h b) (fst c) ;;
    if zlen row <? snd c then Throw RuntimeError
    else
      h <- get2 (b_h b) (fst c) (snd c) ;; v <- get2 (b_v b) (fst c) (snd c) ;; w <- get2 (b_w b) (fst c) (snd c) ;;
      Ok (v2r h, v2r v, v2r w).
(** corr(p1, p2), structure.cpp:185-230, 359-404, 509-554, 660-705, 807-852 *)
Definition corr_base (G : geo) (b : sbase) (p1 p2 : point) : res rv :=
  let hdist := straight p1 p2 in
  if b_spatial b then
    s <- scales G b p1 ;;
    let '(h, v, w) := s in
    if rltb (loc_h (b_kind b) (b_min b) h) hdist then Ok (rz 0)
    else Ok (product (rho (b_kind b)) hdist p1 p2 h v w)
  else
    l <- loc_base G b p1 ;;
    if rltb l hdist then Ok (rz 0)
    else
      h <- get2 (b_h b) 0 0 ;; v <- get2 (b_v b) 0 0 ;; w <- get2 (b_w b) 0 0 ;;
      Ok (product (rho (b_kind b)) hdist p1 p2 (v2r h) (v2r v) (v2r w)).
(** corr(p1, vector), structure.cpp:231-267, 405-441, 555-591, 706-742, 853-889 *)
Definition corr_base_vec (G : geo) (b : sbase) (p1 : point) (p2 : list point) : res (list rv) :=
  if b_spatial b then
    s <- scales G b p1 ;;
    let '(h, v, w) := s in
    let l := loc_h (b_kind b) (b_min b) h in
    Ok (map (fun p => let hdist := straight p1 p in
                      if rleb hdist l then product (rho (b_kind b)) hdist p1 p h v w else rz 0) p2)
  else mapM (fun p => corr_base G b p1 p) p2.

(** Points of MultipleStructure::corr, structure.cpp:99-107 *)
Definition with_place (p1 p : point) : point :=
  {| p_lat := p_lat p; p_lon := p_lon p; p_elev := p_elev p1; p_laf := p_laf p1; p_type := p_type p1;
     p_x := p_x p; p_y := p_y p; p_z := p_z p |}.
Definition with_elev (p1 p : point) : point :=
  {| p_lat := p_lat p1; p_lon := p_lon p1; p_elev := p_elev p; p_laf := p_laf p1; p_type := p_type p1;
     p_x := p_x p1; p_y := p_y p1; p_z := p_z p1 |}.
Definition with_laf (p1 p : point) : point :=
  {| p_lat := p_lat p1; p_lon := p_lon p1; p_elev := p_elev p1; p_laf := p_laf p; p_type := p_type p1;
     p_x := p_x p1; p_y := p_y p1; p_z := p_z p1 |}.
(** corr(p1, p2): structure.cpp:98-112 (Multiple), 297-310 (Cressman), 917-919 (CrossValidation) *)
Fixpoint corr (G : geo) (s : sfun) (p1 p2 : point) : res rv :=
  match s with
  | SBase b => corr_base G b p1 p2
  | SCressman h v w => Ok (product cressman_rho (straight p1 p2) p1 p2 (v2r h) (v2r v) (v2r w))
  | SMultiple sh sv sw =>
      h <- corr G sh p1 (with_place p1 p2) ;;
      v <- corr G sv p1 (with_elev p1 p2) ;;
      w <- corr G sw p1 (with_laf p1 p2) ;;
      Ok (rmul (rmul h v) w)
  | SCross s _ => corr G s p1 p2
  end.
(** corr(p1, vector): structure.cpp:13-19 (Cressman and CrossValidation inherit it), 113-136 (Multiple) *)
Fixpoint corr_vec (G : geo) (s : sfun) (p1 : point) (p2 : list point) : res (list rv) :=
  match s with
  | SBase b => corr_base_vec G b p1 p2
  | SMultiple sh sv sw =>
      h <- corr_vec G sh p1 (map (with_place p1) p2) ;;
      v <- corr_vec G sv p1 (map (with_elev p1) p2) ;;
      w <- corr_vec G sw p1 (map (with_laf p1) p2) ;;
      mapM (fun i => a <- znth h i ;; b <- znth v i ;; c <- znth w i ;; Ok (rmul (rmul a b) c)) (zrange 0 (zlen p2))
  | _ => mapM (fun p => corr G s p1 p) p2
  end.
(** corr_background(p1, p2), structure.cpp:20-22, 920-927 *)
Fixpoint corr_bg (G : geo) (s : sfun) (p1 p2 : point) : res rv :=
  match s with
  | SCross s d =>
      if is_valid d && rleb (straight p1 p2) (v2r d) then Ok (rz 0) else corr_bg G s p1 p2
  | _ => corr G s p1 p2
  end.
(** corr_background(p1, vector), structure.cpp:23-25, 928-938 *)
Fixpoint corr_bg_vec (G : geo) (s : sfun) (p1 : point) (p2 : list point) : res (list rv) :=
  match s with
  | SCross s d =>
      c <- corr_bg_vec G s p1 p2 ;;
      mapM (fun i => x <- znth c i ;; p <- znth p2 i ;;
                     Ok (if is_valid d && rleb (straight p1 p) (v2r d) then rz 0 else x)) (zrange 0 (zlen c))
  | _ => corr_vec G s p1 p2
  end.
(** localization_distance(p), structure.cpp:87-89, 95-97, 942-944 *)
Fixpoint loc_dist (G : geo) (s : sfun) (p : point) : res rv :=
  match s with
  | SBase b => loc_base G b p
  | SCressman h _ _ => Ok (v2r h)
  | SMultiple h _ _ => loc_dist G h p
  | SCross s _ => loc_dist G s p
  end.
