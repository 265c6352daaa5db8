(** The client's bilinear downscaler: C210-C213. *)
From Coq Require Import Lia.
From Verif Require Import Base ListLib QcTac M_Stat S_Stat M_COpt M_CUtil S_CUtil P_CUtil M_CCal S_CCal P_CCal M_CTree M_CDown P_CDown S_Bilin M_CBilin S_CBilin P_CBilin P_CDistEx P_CBilinEx.
Local Open Scope Z_scope.

(** C210: interpolation within the grid, the nearest value beyond it.  False for falling coordinates at some places, and on the first edges *)
Theorem C210_first_row_refuted : exists ys xs i j lat lon u s a b, falling ys /\ rising xs /\ well_sited ys xs lat lon a b /\ misplaced ys xs i j lat lon u s a b.
Proof. exact c210_first_row. Qed.
Print Assumptions C210_first_row_refuted.
Theorem C210_first_column_refuted : exists ys xs i j lat lon u s a b, rising ys /\ falling xs /\ well_sited ys xs lat lon a b /\ misplaced ys xs i j lat lon u s a b.
Proof. exact c210_first_column. Qed.
Print Assumptions C210_first_column_refuted.
Theorem C210_row_number_refuted : exists ys xs i j lat lon u s a b, rising ys /\ falling xs /\ 0 < b < zlen xs - 1 /\ well_sited ys xs lat lon a b /\ misplaced ys xs i j lat lon u s a b.
Proof. exact c210_last_number. Qed.
Print Assumptions C210_row_number_refuted.
Theorem C210_edge_refuted : exists ys xs i j lat lon u s a b, rising ys /\ rising xs /\ well_sited ys xs lat lon a b /\ misplaced ys xs i j lat lon u s a b.
Proof. exact c210_edge. Qed.
Print Assumptions C210_edge_refuted.
Theorem C210_fields_partial : forall E ys xs ilats ilons olats olons m di d ifs ofs, rect_grid ys xs ilats ilons -> rising ys \/ falling ys -> rising xs \/ falling xs -> 2 <= zlen ys -> 2 <= zlen xs ->
  d_y di = zlen ys -> d_x di = zlen xs -> d_e di = d_e d -> d_t di = d_t d -> shaped di ifs -> shaped d ofs ->
  (forall y x, 0 <= y < d_y d -> 0 <= x < d_x d -> exists lat lon a b, sited olats olons m y x lat lon a b /\ well_sited ys xs lat lon a b /\ (near_step ys a lat -> near_step xs b lon -> ~ lost ys xs a b)) ->
  exists out, bilinear_downscaler E (Ok tt) ilats ilons olats olons m ifs d ofs = Ok out /\ shaped d out /\
    forall t y x e lat lon a b, 0 <= t < d_t d -> within d y x e -> sited olats olons m y x lat lon a b ->
      exists w, element out t y x e w /\ interpolated ys xs lat lon a b (fun i j v => element ifs t i j e v) (Fin missing_number) w.
Proof. exact c210. Qed.
Print Assumptions C210_fields_partial.
Theorem C210_grid_partial : forall E ys xs ilats ilons olats olons m input ny nx, rect_grid ys xs ilats ilons -> rising ys \/ falling ys -> rising xs \/ falling xs -> 2 <= zlen ys -> 2 <= zlen xs ->
  rect (zlen ys) (zlen xs) input -> rect ny nx olats -> 0 < ny ->
  (forall y x, 0 <= y < ny -> 0 <= x < nx -> exists lat lon a b, sited olats olons m y x lat lon a b /\ well_sited ys xs lat lon a b /\ (near_step ys a lat -> near_step xs b lon -> ~ lost ys xs a b)) ->
  exists out, bilinear_vec E (Ok tt) ilats ilons olats olons m input = Ok out /\ rect ny nx out /\
    forall y x lat lon a b, 0 <= y < ny -> 0 <= x < nx -> sited olats olons m y x lat lon a b ->
      exists w own, get2 out y x = Ok w /\ get2 input a b = Ok own /\ interpolated ys xs lat lon a b (fun i j v => get2 input i j = Ok v) own w.
Proof. exact c210_vec. Qed.
Print Assumptions C210_grid_partial.
Example C210_example : rect_grid (map qz [0; 1; 2]) (map qz [0; 10; 20]) (gys [0; 1; 2] 3) (gxs [0; 10; 20] 3) /\
  bilinear_vec E0 (Ok tt) (gys [0; 1; 2] 3) (gxs [0; 10; 20] 3) [[fq (1 # 2); fq (3 # 2); fz 5]] [[fz 5; fz 15; fz 12]] [[(0, 0); (1, 1); (2, 1)]] [[fz 0; fz 1; fz 2]; [fz 10; fz 11; fz 12]; [fz 20; fz 21; CMV]] = Ok [[fq (11 # 2); fz 11; fz 21]] /\
  bilinear_downscaler E0 (Ok tt) (gys [0; 1; 2] 3) (gxs [0; 10; 20] 3) [[fq (1 # 2); fq (3 # 2); fz 5]] [[fz 5; fz 15; fz 12]] [[(0, 0); (1, 1); (2, 1)]] [field33 [0; 1; 2; 10; 11; 12; 20; 21; -999]] (dims2 3 1 1) [row 3 1 [NaN; NaN; NaN]] = Ok [row 3 1 [fq (11 # 2); CMV; fz 21]].
Proof. split; [apply (grid_made [0; 1; 2] [0; 10; 20]); discriminate|]. split; fcalc. Qed.

(** C211: on any grid, each value is an average of the corners of a cell at the nearest point *)
Theorem C211_average : forall E ny nx ilats ilons olats olons m ifs d ofs out, rect ny nx ilats -> rect ny nx ilons -> shaped d ofs -> bilinear_downscaler E (Ok tt) ilats ilons olats olons m ifs d ofs = Ok out ->
  shaped d out /\ forall t y x e, 0 <= t < d_t d -> within d y x e -> exists a b w, get2 m y x = Ok (a, b) /\ 0 <= a < ny /\ 0 <= b < nx /\ element out t y x e w /\
    (element ifs t a b e w \/ average (fun i j v => element ifs t i j e v) a b (Fin missing_number) w).
Proof. exact c211. Qed.
Print Assumptions C211_average.
Example C211_example : rect 2 2 [[fz 0; fz 0]; [fz 2; fz 2]] /\ rect 2 2 [[fz 0; fz 4]; [fz 1; fz 5]] /\
  bilinear_downscaler E0 (Ok tt) [[fz 0; fz 0]; [fz 2; fz 2]] [[fz 0; fz 4]; [fz 1; fz 5]] [[fz 1]] [[fz 2]] [[(0, 0)]] [{| f_values := [fz 0; fz 8; fz 16; fz 24]; f_ny := 2; f_nx := 2; f_ne := 1 |}] (dims2 1 1 1) [row 1 1 [NaN]] = Ok [row 1 1 [fz 11]].
Proof. split; [split; [reflexivity|intros r [<-|[<-|[]]]; reflexivity]|]. split; [split; [reflexivity|intros r [<-|[<-|[]]]; reflexivity]|]. fcalc. Qed.

(** C212: nothing is read outside of the fields.  False in four ways *)
Theorem C212_no_return_refuted : forall E, exists ys xs ilats ilons olats olons m di d ifs ofs, rect_grid ys xs ilats ilons /\ rising ys /\ rising xs /\ 2 <= zlen ys /\ 2 <= zlen xs /\
  d_y di = zlen ys /\ d_x di = zlen xs /\ d_e di = d_e d /\ d_t di = d_t d /\ shaped di ifs /\ shaped d ofs /\
  (exists lat lon a b, sited olats olons m 0 0 lat lon a b /\ well_sited ys xs lat lon a b) /\ bilinear_downscaler E UB ilats ilons olats olons m ifs d ofs = UB.
Proof. exact c212_no_return. Qed.
Print Assumptions C212_no_return_refuted.
Theorem C212_one_row_refuted : forall E, exists ys xs ilats ilons olats olons m di d ifs ofs, rect_grid ys xs ilats ilons /\ rising ys /\ rising xs /\ 1 <= zlen ys /\ 2 <= zlen xs /\
  d_y di = zlen ys /\ d_x di = zlen xs /\ d_e di = d_e d /\ d_t di = d_t d /\ shaped di ifs /\ shaped d ofs /\
  (exists lat lon a b, sited olats olons m 0 0 lat lon a b /\ well_sited ys xs lat lon a b) /\ bilinear_downscaler E (Ok tt) ilats ilons olats olons m ifs d ofs = UB.
Proof. exact c212_one_row. Qed.
Print Assumptions C212_one_row_refuted.
Theorem C212_falling_refuted : forall E, exists ys xs ilats ilons olats olons m di d ifs ofs, rect_grid ys xs ilats ilons /\ rising ys /\ falling xs /\ 2 <= zlen ys /\ 2 <= zlen xs /\
  d_y di = zlen ys /\ d_x di = zlen xs /\ d_e di = d_e d /\ d_t di = d_t d /\ shaped di ifs /\ shaped d ofs /\
  (exists lat lon a b, sited olats olons m 0 0 lat lon a b /\ well_sited ys xs lat lon a b) /\ bilinear_downscaler E (Ok tt) ilats ilons olats olons m ifs d ofs = UB.
Proof. exact c212_falling. Qed.
Print Assumptions C212_falling_refuted.
Theorem C212_no_place_refuted : forall E, exists ilats ilons di d ifs ofs, rect 3 3 ilats /\ rect 3 3 ilons /\ distinct_steps ilats 1 0 /\ rising_rows ilons /\ d_y di = 3 /\ d_x di = 3 /\ d_e di = d_e d /\ d_t di = d_t d /\ shaped di ifs /\ shaped d ofs /\
  bilinear_downscaler E (Ok tt) ilats ilons [[NaN]] [[fz 0]] [[(-999, -999)]] ifs d ofs = UB.
Proof. exact c212_no_place. Qed.
Print Assumptions C212_no_place_refuted.
Theorem C212_reads_partial : forall E ny nx ilats ilons olats olons m di d ifs ofs, rect ny nx ilats -> rect ny nx ilons -> 2 <= ny -> 2 <= nx -> distinct_steps ilats 1 0 -> rising_rows ilons ->
  d_y di = ny -> d_x di = nx -> d_e di = d_e d -> d_t di = d_t d -> shaped di ifs -> shaped d ofs -> rect (d_y d) (d_x d) olats -> rect (d_y d) (d_x d) olons -> rect (d_y d) (d_x d) m ->
  (forall y x a b, get2 m y x = Ok (a, b) -> 0 <= a < ny /\ 0 <= b < nx) ->
  (exists out, bilinear_downscaler E (Ok tt) ilats ilons olats olons m ifs d ofs = Ok out /\ shaped d out) \/ bilinear_downscaler E (Ok tt) ilats ilons olats olons m ifs d ofs = Abort.
Proof. exact c212. Qed.
Print Assumptions C212_reads_partial.
Example C212_example : distinct_steps (gys [0; 1] 2) 1 0 /\ rising_rows (gxs [0; 1] 2) /\
  bilinear_downscaler E0 (Ok tt) (gys [0; 1] 2) (gxs [0; 1] 2) [[fq (1 # 2)]] [[fq (1 # 4)]] [[(0, 0)]] [{| f_values := [fz 0; fz 8; fz 16; fz 24]; f_ny := 2; f_nx := 2; f_ne := 1 |}] (dims2 1 1 1) [row 1 1 [NaN]] = Ok [row 1 1 [fz 10]].
Proof. exact c212_ex. Qed.

(** C213: on the same grid nothing changes.  False if values are missing *)
Theorem C213_missing_refuted : forall E, exists ys xs ilats ilons m d ifs ofs out v, rect_grid ys xs ilats ilons /\ rising ys /\ rising xs /\ 2 <= zlen ys /\ 2 <= zlen xs /\ d_y d = zlen ys /\ d_x d = zlen xs /\ shaped d ifs /\ shaped d ofs /\
  (forall y x, 0 <= y < d_y d -> 0 <= x < d_x d -> get2 m y x = Ok (y, x)) /\ bilinear_downscaler E (Ok tt) ilats ilons ilats ilons m ifs d ofs = Ok out /\
  element ifs 0 1 1 0 v /\ ~ missing v /\ element out 0 1 1 0 (Fin missing_number).
Proof. exact c213_refuted. Qed.
Print Assumptions C213_missing_refuted.
Theorem C213_same_grid_partial : forall E ys xs lats lons m d ifs ofs, rect_grid ys xs lats lons -> rising ys -> rising xs -> 2 <= zlen ys -> 2 <= zlen xs -> d_y d = zlen ys -> d_x d = zlen xs -> shaped d ifs -> shaped d ofs ->
  (forall y x, 0 <= y < d_y d -> 0 <= x < d_x d -> get2 m y x = Ok (y, x)) ->
  (forall t y x e v, element ifs t y x e v -> exists q, v = Fin q /\ ~ missing v) ->
  exists out, bilinear_downscaler E (Ok tt) lats lons lats lons m ifs d ofs = Ok out /\ shaped d out /\
    forall t y x e, 0 <= t < d_t d -> within d y x e -> exists v, element ifs t y x e v /\ element out t y x e v.
Proof. exact c213. Qed.
Print Assumptions C213_same_grid_partial.
Example C213_example : rising (map qz [0; 1; 3]) /\ bilinear_downscaler E0 (Ok tt) (gys [0; 1; 3] 3) (gxs [0; 1; 3] 3) (gys [0; 1; 3] 3) (gxs [0; 1; 3] 3) (identity_map 3 3) [field33 [0; 1; 2; 10; 15; 12; 20; 29; 22]] dims33 [field33 [0; 0; 0; 0; 0; 0; 0; 0; 0]] = Ok [field33 [0; 1; 2; 10; 15; 12; 20; 29; 22]].
Proof. split; [rising3|fcalc]. Qed.
