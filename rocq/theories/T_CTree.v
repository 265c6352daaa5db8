(** Search for the nearest grid point by the command-line client: C163, C164. *)
From Verif Require Import Base ListLib M_Stat M_COpt M_CUtil S_CUtil M_CTree S_CTree P_CTree.
Local Open Scope Z_scope.

(** C163: the tree gives a nearest point.  False for distances along the great circle, of which there is one; proved for distances that are not shortened by
    going past a meridian or a parallel; without any point the program stops *)
Theorem C163_nearest_point_refuted : forall D, great_circle D -> exists srt lats lons lat lon t i j, sorts_items srt /\ grid 1 3 lats lons /\ all_on_earth lats lons /\ on_earth lat lon /\
  build_tree srt lats lons = Ok t /\ tree_nearest (lift4 D) t (Fin lat) (Fin lon) = Ok (i, j) /\ ~ is_nearest (D lat lon) lats lons i j.
Proof. exact c163_refuted. Qed.
Print Assumptions C163_nearest_point_refuted.
Theorem C163_great_circle_exists : exists D, great_circle D.
Proof. exact c163_great_circle. Qed.
Print Assumptions C163_great_circle_exists.
Theorem C163_nearest_point_partial : forall D srt ny nx lats lons lat lon, zero_at_itself D -> straight D -> sorts_items srt -> grid ny nx lats lons -> all_on_earth lats lons -> (exists i j la lo, point lats lons i j la lo) -> on_earth lat lon ->
  exists t i j, build_tree srt lats lons = Ok t /\ tree_nearest (lift4 D) t (Fin lat) (Fin lon) = Ok (i, j) /\ is_nearest (D lat lon) lats lons i j.
Proof. exact c163. Qed.
Print Assumptions C163_nearest_point_partial.
Theorem C163_no_points : forall srt lats lons ny nx, grid ny nx lats lons -> (forall i j la lo, ~ point lats lons i j la lo) -> build_tree srt lats lons = Abort.
Proof. exact c163_empty. Qed.
Print Assumptions C163_no_points.
Example C163_example : zero_at_itself l1 /\ straight l1 /\ sorts_items sort_items /\
  grid 2 3 [[fz 60; NaN; fz 61]; [fz 62; fz 60; fz 61]] [[fz 5; fz 6; fz 7]; [fz 5; fz 6; fz 7]] /\
  (t <- build_tree sort_items [[fz 60; NaN; fz 61]; [fz 62; fz 60; fz 61]] [[fz 5; fz 6; fz 7]; [fz 5; fz 6; fz 7]] ;; tree_nearest (lift4 l1) t (fq (121 # 2)) (fz 6)) = Ok (1, 1) /\
  build_tree sort_items [[NaN]] [[fz 1]] = Abort.
Proof.
  split; [exact l1_zero|]. split; [exact l1_straight|]. split; [exact sort_items_ok|]. split; [|split; vcalc].
  repeat split; try lia; intros r Hr; repeat (destruct Hr as [<-|Hr]; [reflexivity|]); contradiction.
Qed.

(** C164: comparing with all points gives a nearest point, or -999 if no point has coordinates *)
Theorem C164_brute_force : forall D ny nx lats lons lat lon, zero_at_itself D -> (forall a b c d, 0 <= D a b c d)%Qc -> grid ny nx lats lons -> all_on_earth lats lons -> on_earth lat lon ->
  exists i j, brute_nearest (lift4 D) lats lons (Fin lat) (Fin lon) = Ok (i, j) /\
    ((exists i' j' la lo, point lats lons i' j' la lo) -> is_nearest (fun la lo => D la lo lat lon) lats lons i j) /\ ((forall i' j' la lo, ~ point lats lons i' j' la lo) -> (i, j) = (-999, -999)).
Proof. exact c164. Qed.
Print Assumptions C164_brute_force.
Example C164_example : brute_nearest (lift4 l1) [[fz 60; NaN; fz 61]; [fz 62; fz 60; fz 61]] [[fz 5; fz 6; fz 7]; [fz 5; fz 6; fz 7]] (fz 61) (fz 8) = Ok (0, 2) /\
  brute_nearest (lift4 l1) [[NaN]] [[fz 1]] (fz 61) (fz 8) = Ok (-999, -999) /\ (forall a b c d, 0 <= l1 a b c d)%Qc.
Proof. split; [vcalc|]. split; [vcalc|]. exact l1_nonneg. Qed.
