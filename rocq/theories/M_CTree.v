(** Model of the client's search for the nearest grid point: src/client/KDTree.cpp, and the brute force search of src/client/Downscaler/Downscaler.cpp.
    [gc] gives the distance along the great circle (Util.cpp:121-137); [srt] is what std::sort makes of a list of points, with points of equal
    longitude (or latitude) in any order.  Simplification: a part [from, to] of the vector of points that is being sorted is a list of its own
    (the parts are disjoint). *)
From Verif Require Import Base M_Stat M_COpt M_CUtil.
Local Open Scope Z_scope.

(** KDTree.h:58-71 *)
Record item := { it_lon : val; it_lat : val; it_i : Z; it_j : Z }.
(** KDTree.h:26-38; a null pointer is [Nil].  The pointer to the parent is not needed: see [path]. *)
Inductive tree := Nil | Node (it : item) (xsection : bool) (left right : tree).
Definition coord (xsection : bool) (it : item) : val := if xsection then it_lon it else it_lat it.

(** Util::getDistance, Util.cpp:107-138 *)
Definition get_distance (gc : val -> val -> val -> val -> val) (lat1 lon1 lat2 lon2 : val) : res val :=
  if negb (cvalid lat1) || negb (cvalid lat2) || negb (cvalid lon1) || negb (cvalid lon2) then Ok CMV else
  if negb (vleb (vabs lat1) (fz 90) && vleb (vabs lat2) (fz 90) && vleb (vabs lon1) (fz 360) && vleb (vabs lon2) (fz 360)) then Abort else
  if veqb lat1 lat2 && veqb lon1 lon2 then Ok (fz 0) else Ok (gc lat1 lon1 lat2 lon2).

(** KDTree.cpp:87-90 and 94-97: past points with the same coordinate *)
Fixpoint advance (fuel : nat) (xsection : bool) (s : list item) (med to : Z) : res Z :=
  match fuel with
  | O => UB
  | S fuel =>
      if med <? to then a <- znth s med ;; b <- znth s (med + 1) ;; if veqb (coord xsection a) (coord xsection b) then advance fuel xsection s (med + 1) to else Ok med
      else Ok med
  end.
(** KDTree::subTree, KDTree.cpp:65-107 *)
Fixpoint sub_tree (srt : bool -> list item -> list item) (fuel : nat) (xsection : bool) (l : list item) : res tree :=
  match fuel with
  | O => UB
  | S fuel =>
      let len := zlen l in
      if len =? 1 then it <- znth l 0 ;; Ok (Node it xsection Nil Nil)
      else
        let s := srt xsection l in
        med <- advance (S (length l)) xsection s (Z.quot len 2) (len - 1) ;;
        it <- znth s med ;;
        left <- (if 0 <? med then sub_tree srt fuel (negb xsection) (firstn (Z.to_nat med) s) else Ok Nil) ;;
        right <- (if med <? len - 1 then sub_tree srt fuel (negb xsection) (skipn (Z.to_nat (med + 1)) s) else Ok Nil) ;;
        Ok (Node it xsection left right)
  end.
(** KDTree.cpp:45-53: the points with valid coordinates, in order *)
Definition tree_items (lats lons : list vec) (nLat nLon : Z) : res (list item) :=
  foldM (fun acc i => foldM (fun acc j =>
    lon <- get2 lons i j ;;
    if cvalid lon then
      lat <- get2 lats i j ;; if cvalid lat then Ok (acc ++ [{| it_lon := lon; it_lat := lat; it_i := i; it_j := j |}]) else Ok acc
    else Ok acc) acc (zrange 0 nLon)) [] (zrange 0 nLat).
(** KDTree::build, KDTree.cpp:29-60 *)
Definition build_tree (srt : bool -> list item -> list item) (lats lons : list vec) : res tree :=
  if negb (zlen lats =? zlen lons) then Abort else
  if zlen lats =? 0 then Abort else
  row <- znth lats 0 ;;
  if zlen row =? 0 then Abort else
  items <- tree_items lats lons (zlen lats) (zlen row) ;;
  if zlen items =? 0 then Abort else
  sub_tree srt (S (length items)) true items.

(** The nodes from the one that KDTree::firstGuess (KDTree.cpp:109-124) returns up to the root, and for each from which child it is reached.
    This is the order in which the parent pointers are followed in KDTree.cpp:136-180. *)
Inductive came := Itself | FromLeft | FromRight.
Fixpoint path (t : tree) (lon lat : val) : list (tree * came) :=
  match t with
  | Nil => []
  | Node it xsection l r =>
      if vleb (if xsection then lon else lat) (coord xsection it) then
        match l with Nil => [(t, Itself)] | _ => path l lon lat ++ [(t, FromLeft)] end
      else
        match r with Nil => [(t, Itself)] | _ => path r lon lat ++ [(t, FromRight)] end
  end.
(** KDTree::nearestNeighbour, KDTree.cpp:126-183.  Line 153 compares the left child with the node that was visited before, or with the node
    itself at the start. *)
Fixpoint nearest (gc : val -> val -> val -> val -> val) (fuel : nat) (root : tree) (lon lat oldBest : val) : res (item * val) :=
  match fuel with
  | O => UB
  | S fuel =>
      let nodes := path root lon lat in
      match nodes with
      | (Node it0 _ _ _, _) :: _ =>
          foldM (fun (st : item * val) node => let '(nearestLeaf, currBest) := st in
            match node with
            | (Nil, _) => UB
            | (Node it xsection l r, from) =>
                dist <- get_distance gc lat lon (it_lat it) (it_lon it) ;;
                let '(nearestLeaf, currBest) := if vltb dist currBest then (it, dist) else (nearestLeaf, currBest) in
                line <- (if xsection then get_distance gc lat lon lat (it_lon it) else get_distance gc lat lon (it_lat it) lon) ;;
                if vltb line currBest then
                  match (match from with FromLeft => r | _ => l end) with
                  | Nil => Ok (nearestLeaf, currBest)
                  | other =>
                      '(nearLeaf, refinedBest) <- nearest gc fuel other lon lat currBest ;;
                      if vltb refinedBest currBest then Ok (nearLeaf, refinedBest) else Ok (nearestLeaf, currBest)
                  end
                else Ok (nearestLeaf, currBest)
            end) (it0, oldBest) nodes
      | _ => UB
      end
  end.
Fixpoint height (t : tree) : nat := match t with Nil => O | Node _ _ l r => S (Nat.max (height l) (height r)) end.
(** KDTree::getNearestNeighbour for one point, KDTree.cpp:228-233 *)
Definition tree_nearest (gc : val -> val -> val -> val -> val) (t : tree) (lat lon : val) : res (Z * Z) :=
  '(it, _) <- nearest gc (height t) t lon lat PInf ;; Ok (it_i it, it_j it).
(** KDTree::getNearestNeighbour for all points of a file, KDTree.cpp:185-226; the tree is not empty *)
Definition tree_nearest_all (gc : val -> val -> val -> val -> val) (t : tree) (nLat nLon : Z) (olats olons : list vec) : res (list (list (Z * Z))) :=
  mapM (fun i => mapM (fun j =>
    lat <- get2 olats i j ;; lon <- get2 olons i j ;;
    if cvalid lat && cvalid lon then tree_nearest gc t lat lon else Ok (-999, -999)) (zrange 0 nLon)) (zrange 0 nLat).

(** Downscaler::getNearestNeighbourBruteForce for one point, Downscaler.cpp:228-253 *)
Definition brute_nearest (gc : val -> val -> val -> val -> val) (ilats ilons : list vec) (iLat iLon : val) : res (Z * Z) :=
  if cvalid iLat && cvalid iLon then
    '(_, best) <- foldM (fun st i =>
      row <- znth ilats 0 ;;
      foldM (fun st j => let '(minDist, best) := st in
        lat <- get2 ilats i j ;;
        if cvalid lat then
          lon <- get2 ilons i j ;;
          if cvalid lon then
            currDist <- get_distance gc lat lon iLat iLon ;;
            Ok (if negb (cvalid minDist) || vltb currDist minDist then (currDist, (i, j)) else st)
          else Ok st
        else Ok st) st (zrange 0 (zlen row))) (CMV, (-999, -999)) (zrange 0 (zlen ilats)) ;;
    Ok best
  else Ok (-999, -999).
