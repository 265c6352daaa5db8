(** The parameter files of the command-line client: C182-C188. *)
From Coq Require Import Ascii String Sorted.
From Verif Require Import Base ListLib M_Stat M_COpt S_COpt M_CUtil S_CUtil M_CText M_CTree S_CTree M_CPar S_CPar P_CTree P_CPar P_CParTxt.
Local Open Scope Z_scope.

(** C182: the parameters of a place and time are those of the last call about them; times are repeated if asked for; outside, there are none *)
Theorem C182_last_parameters : forall srt gc cycle h, good_history h -> (exists f, set_all h (new_pfile cycle) = Ok f) /\
  forall f t k n, file_of srt cycle h f -> placed k -> last_time h n -> (t < 0 -> get_parameters gc f t k false = Abort) /\
    (forall u, 0 <= t -> time_used h cycle t u -> (n < u -> get_parameters gc f t k false = Abort) /\ (u <= n -> exists p, latest h u k p /\ get_parameters gc f t k false = Ok p)).
Proof. exact c182. Qed.
Print Assumptions C182_last_parameters.
Theorem C182_negative_time : forall p t k f, t < 0 -> set_parameters p t k f = UB.
Proof. exact c182_negative. Qed.
Print Assumptions C182_negative_time.
Example C182_example : good_history calls /\ last_time calls 2 /\ time_used calls true 5 2 /\ exists f, set_all calls (new_pfile true) = Ok f /\
  get_parameters (fun _ _ _ _ => fz 0) f 0 (spot 60) false = Ok [fz 7; fz 8] /\ get_parameters (fun _ _ _ _ => fz 0) f 5 (spot 60) false = Ok [fz 3; fz 4] /\ get_parameters (fun _ _ _ _ => fz 0) f 1 (spot 50) false = Ok [].
Proof.
  split; [exact calls_good|]. split; [exact calls_last|]. split.
  { right. split; [exists (2, spot 60, [fz 3; fz 4]); split; [right; left; reflexivity|discriminate]|]. split; [discriminate|]. intros _. exists 2. split; [exact calls_last|]. split; [lia|]. exists 1. lia. }
  exists (match set_all calls (new_pfile true) with Ok f => f | _ => new_pfile true end). repeat (split; [reflexivity|]). reflexivity.
Qed.

(** C183: the only place of a file is used everywhere; the global parameters need a file without places.  A file that cannot be opened has neither parameters nor a place, and asking for global ones is undefined *)
Theorem C183_unreadable_file_refuted : exists srt rint rnum f, read_text srt rint rnum false None = Ok (f, []) /\ (forall gc k near, get_parameters gc f 0 k near = Ok []) /\ get_global f 0 = UB /\ recompute_tree srt f = UB.
Proof. exact c183_refuted. Qed.
Print Assumptions C183_unreadable_file_refuted.
Theorem C183_single_place_partial : forall srt gc cycle h l f t u n k, good_history h -> file_of srt cycle h f -> one_place h l -> 0 <= t -> last_time h n -> time_used h cycle t u ->
  (u <= n -> exists p, latest h u l p /\ get_parameters gc f t k true = Ok p /\ (~ located l -> get_global f t = Ok p)) /\
  (n < u -> get_parameters gc f t k true = Abort /\ get_global f t = Abort).
Proof. exact c183_one. Qed.
Print Assumptions C183_single_place_partial.
Theorem C183_places_not_global : forall srt cycle h f t, good_history h -> file_of srt cycle h f -> two_places h \/ (exists l, one_place h l /\ located l) -> get_global f t = Abort.
Proof. exact c183_dependent. Qed.
Print Assumptions C183_places_not_global.
Example C183_example : let h := [(0, anywhere, [fz 1]); (1, anywhere, [fz 2])] in good_history h /\ one_place h anywhere /\ ~ located anywhere /\ last_time h 1 /\ time_used h false 1 1 /\
  exists f, set_all h (new_pfile false) = Ok f /\ get_parameters (fun _ _ _ _ => fz 0) f 1 (spot 60) true = Ok [fz 2] /\ get_global f 1 = Ok [fz 2] /\ get_global f 2 = Abort.
Proof.
  cbv zeta. split. { intros e He. repeat (destruct He as [<-|He]; [split; [split; cbn; lia|split; discriminate]|]). contradiction. }
  split. { split; [discriminate|]. intros e He. repeat (destruct He as [<-|He]; [split; reflexivity|]). contradiction. }
  split. { intros (a & b & [= <-] & _ & K & _). apply K. reflexivity. }
  split. { split; [lia|]. split; [intros e He; repeat (destruct He as [<-|He]; [cbn; lia|]); contradiction|]. right. exists (1, anywhere, [fz 2]). split; [right; left|]; reflexivity. }
  split. { right. split; [exists (1, anywhere, [fz 2]); split; [right; left; reflexivity|discriminate]|]. split; [reflexivity|discriminate]. }
  exists (match set_all [(0, anywhere, [fz 1]); (1, anywhere, [fz 2])] (new_pfile false) with Ok f => f | _ => new_pfile true end). repeat (split; [reflexivity|]). reflexivity.
Qed.

(** C184: among several places, the nearest one that has parameters for the time is used, by the straight-line distance.  Not so if the tree is computed again after further calls *)
Theorem C184_recomputed_tree_refuted : exists srt h1 h2 f0 f1 f2 g k lat lon, sorts_items srt /\ good_history (h1 ++ h2) /\ all_sited (h1 ++ h2) /\ two_places h1 /\ sited k lat lon /\
  set_all h1 (new_pfile false) = Ok f0 /\ recompute_tree srt f0 = Ok f1 /\ set_all h2 f1 = Ok f2 /\ recompute_tree srt f2 = Ok g /\
  exists p, get_parameters (lift4 l1) g 0 k true = Ok p /\ ~ exists l, nearest_with_set l1 (h1 ++ h2) 0 lat lon l p.
Proof. exact c184_refuted. Qed.
Print Assumptions C184_recomputed_tree_refuted.
Theorem C184_nearest_place_partial : forall D srt cycle h f, zero_at_itself D -> straight D -> sorts_items srt -> good_history h -> all_sited h -> two_places h -> set_all h (new_pfile cycle) = Ok f ->
  exists g, recompute_tree srt f = Ok g /\ forall t u n k lat lon, 0 <= t -> time_used h cycle t u -> last_time h n -> u <= n -> sited k lat lon ->
    (exists l p, nearest_with_set D h u lat lon l p /\ get_parameters (lift4 D) g t k true = Ok p) \/ ((forall l p, latest h u l p -> p = []) /\ get_parameters (lift4 D) g t k true = Ok []).
Proof. exact c184. Qed.
Print Assumptions C184_nearest_place_partial.
Example C184_example : zero_at_itself P_CTree.l1 /\ straight P_CTree.l1 /\ sorts_items P_CTree.sort_items /\ all_sited calls /\ two_places calls /\ sited (spot 51) (qz 51) (qz 0) /\
  exists f g, set_all calls (new_pfile true) = Ok f /\ recompute_tree P_CTree.sort_items f = Ok g /\ get_parameters (lift4 P_CTree.l1) g 0 (spot 51) true = Ok [fz 5; fz 6] /\ get_parameters (lift4 P_CTree.l1) g 2 (spot 51) true = Ok [fz 3; fz 4].
Proof.
  split; [exact P_CTree.l1_zero|]. split; [exact P_CTree.l1_straight|]. split; [exact P_CTree.sort_items_ok|].
  split. { intros e He. repeat (destruct He as [<-|He]; [eexists _, _; apply spot_sited; lia|]). contradiction. }
  split. { exists (0, spot 60, [fz 1; fz 2]), (0, spot 50, [fz 5; fz 6]). split; [left; auto|]. split; [right; right; left; auto|]. intros [E _]. cbn in E. injection E as E. discriminate. }
  split; [apply spot_sited; lia|].
  exists (match set_all calls (new_pfile true) with Ok f => f | _ => new_pfile true end), (match set_all calls (new_pfile true) with Ok f => match recompute_tree P_CTree.sort_items f with Ok g => g | _ => f end | _ => new_pfile true end).
  split; [reflexivity|]. split; [reflexivity|]. split; reflexivity.
Qed.

(** C185: the number of parameters, and the times *)
Theorem C185_number_of_parameters : forall srt cycle h f n, good_history h -> h <> [] -> last_time h n -> file_of srt cycle h f -> let r := num_parameters f in
  (0 < r /\ forall t k p, 0 <= t -> latest h t k p -> p = [] \/ zlen p = r) \/
  (r = 0 /\ exists e t, In e h /\ 0 <= t <= n /\ latest h t (where_ e) []) \/
  (r = -999 /\ exists t k p t' k' p', latest h t k p /\ latest h t' k' p' /\ p <> [] /\ p' <> [] /\ zlen p <> zlen p').
Proof. exact c185_count. Qed.
Print Assumptions C185_number_of_parameters.
Theorem C185_same_number : forall srt cycle h f n m, good_history h -> h <> [] -> last_time h n -> file_of srt cycle h f -> 0 < m ->
  (forall e t p, In e h -> 0 <= t <= n -> latest h t (where_ e) p -> zlen p = m) -> num_parameters f = m.
Proof. exact c185_consistent. Qed.
Print Assumptions C185_same_number.
Theorem C185_times : forall srt cycle h f n, good_history h -> h <> [] -> last_time h n -> file_of srt cycle h f -> get_times f = zrange 0 (n + 1).
Proof. exact c185_times. Qed.
Print Assumptions C185_times.
Example C185_example : good_history calls /\ last_time calls 2 /\ exists f, set_all calls (new_pfile true) = Ok f /\ num_parameters f = 0 /\ get_times f = [0; 1; 2] /\
  exists g, set_all [(0, spot 60, [fz 1; fz 2]); (0, spot 50, [fz 3; fz 4])] (new_pfile true) = Ok g /\ num_parameters g = 2 /\
  exists e, set_all [(0, spot 60, [fz 1; fz 2]); (0, spot 50, [fz 3])] (new_pfile true) = Ok e /\ num_parameters e = -999.
Proof.
  split; [exact calls_good|]. split; [exact calls_last|]. exists (match set_all calls (new_pfile true) with Ok f => f | _ => new_pfile true end). split; [reflexivity|]. split; [reflexivity|]. split; [reflexivity|].
  exists (match set_all [(0, spot 60, [fz 1; fz 2]); (0, spot 50, [fz 3; fz 4])] (new_pfile true) with Ok f => f | _ => new_pfile true end). split; [reflexivity|]. split; [reflexivity|].
  exists (match set_all [(0, spot 60, [fz 1; fz 2]); (0, spot 50, [fz 3])] (new_pfile true) with Ok f => f | _ => new_pfile true end). split; reflexivity.
Qed.

(** C186: a table of parameters is read row by row; a last row without newline is lost *)
Theorem C186_last_row_refuted : exists srt text f0 f, sorts_items srt /\ text = txt "time p" ++ [newline] ++ txt "0 1" ++ [newline] ++ txt "1 2" /\
  set_all [(0, anywhere, [fz 1])] (new_pfile false) = Ok f0 /\ recompute_tree srt f0 = Ok f /\
  read_text srt read_digits read_number false (Some text) = Ok (f, [0]) /\
  exists f1, set_all [(0, anywhere, [fz 1]); (1, anywhere, [fz 2])] (new_pfile false) = Ok f1 /\ recompute_tree srt f1 <> Ok f /\
  read_text srt read_digits read_number false (Some (text ++ [newline])) = (f <- recompute_tree srt f1 ;; Ok (f, [0; 1])).
Proof. exact c186_refuted. Qed.
Print Assumptions C186_last_row_refuted.
Theorem C186_table_partial : forall srt rint rnum cycle header rows h text, good_header header -> Text (header :: rows) text -> rows <> [] -> Forall2 (table_row rint rnum header) rows h ->
  In (txt "time") header \/ In (txt "lat") header \/ zlen rows = 1 ->
  exists times, StronglySorted Z.lt times /\ (forall t, In t times <-> exists e, In e h /\ at_ e = t) /\
    read_text srt rint rnum cycle (Some text) = (f0 <- set_all h (new_pfile cycle) ;; f <- recompute_tree srt f0 ;; Ok (f, times)).
Proof. exact c186. Qed.
Print Assumptions C186_table_partial.
Example C186_example : good_header table_head /\ Text (table_head :: table_lines) table_text /\ Forall2 (table_row read_digits read_number table_head) table_lines table_calls /\
  exists f, read_text P_CTree.sort_items read_digits read_number false (Some table_text) = Ok (f, [0; 3]) /\ get_parameters (lift4 P_CTree.l1) f 3 (spot 60) true = Ok [fz 7; fz 8].
Proof.
  split; [exact table_head_good|]. split; [exact table_text_ok|]. split; [exact table_rows_ok|].
  exists (match read_text P_CTree.sort_items read_digits read_number false (Some table_text) with Ok (f, _) => f | _ => new_pfile true end). split; reflexivity.
Qed.

(** C187: incomplete files are rejected.  Rows of different lengths need not be *)
Theorem C187_short_row_refuted : exists srt, sorts_items srt /\
  read_text srt read_digits read_number false (Some (txt "p lat lon elev" ++ [newline] ++ txt "1 60 10 0" ++ [newline] ++ txt "2 61 11" ++ [newline])) =
    (f0 <- set_all [(0, {| l_lat := fz 60; l_lon := fz 10; l_elev := fz 0 |}, [fz 1]); (0, anywhere, [fz 2])] (new_pfile false) ;; f <- recompute_tree srt f0 ;; Ok (f, [0])) /\
  read_text srt read_digits read_number false (Some (txt "time p" ++ [newline] ++ txt "0 1 2" ++ [newline] ++ txt "1 3 4" ++ [newline])) =
    (f0 <- set_all [(0, anywhere, [fz 1; fz 2]); (1, anywhere, [fz 3; fz 4])] (new_pfile false) ;; f <- recompute_tree srt f0 ;; Ok (f, [0; 1])).
Proof. exact c187_refuted. Qed.
Print Assumptions C187_short_row_refuted.
Theorem C187_incomplete_place : forall srt rint rnum cycle header rows text a b, Text (header :: rows) text -> In a [txt "lat"; txt "lon"; txt "elev"] -> In b [txt "lat"; txt "lon"; txt "elev"] -> In a header -> ~ In b header ->
  read_text srt rint rnum cycle (Some text) = Abort.
Proof. exact c187_place. Qed.
Print Assumptions C187_incomplete_place.
Theorem C187_no_header : forall srt rint rnum cycle text, Text [] text -> read_text srt rint rnum cycle (Some text) = Abort.
Proof. exact c187_nothing. Qed.
Print Assumptions C187_no_header.
Theorem C187_no_rows : forall srt rint rnum cycle header text, Text [header] text -> read_text srt rint rnum cycle (Some text) = Abort.
Proof. exact c187_empty. Qed.
Print Assumptions C187_no_rows.
Theorem C187_ambiguous_rows : forall srt rint rnum cycle header rows h text, good_header header -> Text (header :: rows) text -> Forall2 (table_row rint rnum header) rows h -> 1 < zlen rows -> ~ In (txt "time") header -> ~ In (txt "lat") header ->
  read_text srt rint rnum cycle (Some text) = Abort.
Proof. exact c187_several. Qed.
Print Assumptions C187_ambiguous_rows.
Theorem C187_other_columns_partial : forall srt rint rnum cycle header first ws others h text, good_header header -> Text (header :: first ++ ws :: others) text -> Forall2 (table_row rint rnum header) first h -> first <> [] -> good_history h ->
  zlen ws <> zlen header -> (forall i n, special n -> znth header i = Ok n -> i < zlen ws) ->
  (forall i w, znth ws i = Ok w -> (znth header i = Ok (txt "time") -> exists t, numeral rint w t) /\ (znth header i <> Ok (txt "time") -> exists v, numeral rnum w v)) ->
  read_text srt rint rnum cycle (Some text) = Abort.
Proof. exact c187_columns. Qed.
Print Assumptions C187_other_columns_partial.
Example C187_example : let rows := [[txt "0"; txt "1"]; [txt "1"; txt "2"; txt "3"]] in
  Text ([txt "time"; txt "p"] :: rows) (txt "time p" ++ newline :: (txt "0 1" ++ newline :: (txt "1 2 3" ++ newline :: []))) /\ good_header [txt "time"; txt "p"] /\
  (forall i n, special n -> znth [txt "time"; txt "p"] i = Ok n -> i < 3) /\
  read_text P_CTree.sort_items read_digits read_number false (Some (txt "time p" ++ newline :: (txt "0 1" ++ newline :: (txt "1 2 3" ++ newline :: [])))) = Abort /\
  read_text P_CTree.sort_items read_digits read_number false (Some (txt "p lat" ++ newline :: (txt "1 60" ++ newline :: []))) = Abort /\
  read_text P_CTree.sort_items read_digits read_number false (Some (txt "p" ++ newline :: (txt "1" ++ newline :: (txt "1" ++ newline :: [])))) = Abort.
Proof.
  cbv zeta. split. { apply X_line; [apply line_check; try reflexivity; discriminate|]. apply X_line; [apply line_check; try reflexivity; discriminate|]. apply X_line; [apply line_check; try reflexivity; discriminate|]. apply X_end. }
  split. { split; [|right; repeat split; intros K; repeat (destruct K as [K|K]; [discriminate|]); contradiction]. intros i j n Hn Hi Hj. pose proof (znth_range _ _ _ Hi) as Ri. pose proof (znth_range _ _ _ Hj) as Rj. change (zlen [txt "time"; txt "p"]) with 2 in *.
    assert (Ci : i = 0 \/ i = 1) by lia. assert (Cj : j = 0 \/ j = 1) by lia. rewrite <- Hi in Hj. clear Hn Hi. destruct Ci as [->| ->], Cj as [->| ->]; try reflexivity; exfalso; vm_compute in Hj; discriminate. }
  split. { intros i n _ Hi. apply znth_range in Hi. change (zlen [txt "time"; txt "p"]) with 2 in Hi. lia. }
  repeat (split; [reflexivity|]). reflexivity.
Qed.

(** C188: files that the program writes cannot be read again: the names of the parameters are written on the line of the first row *)
Theorem C188_write_read_refuted : exists fint fnum f text, set_all [(0, anywhere, [fz 1])] (new_pfile false) = Ok f /\ write_text fint fnum f = Ok text /\ text = txt "time" ++ [newline] ++ txt " param00 1" ++ [newline] /\
  forall srt cycle, read_text srt read_digits read_number cycle (Some text) = Abort.
Proof. exact c188_refuted. Qed.
Print Assumptions C188_write_read_refuted.
Theorem C188_written_files_rejected : forall srt rint rnum fint fnum cycle f text, (forall s, rint ("p"%char :: s) = None) -> 1 <= num_parameters f -> write_text fint fnum f = Ok text -> read_text srt rint rnum cycle (Some text) = Abort.
Proof. exact c188. Qed.
Print Assumptions C188_written_files_rejected.
Example C188_example : (forall s, read_digits ("p"%char :: s) = None) /\ exists f, set_all table_calls (new_pfile false) = Ok f /\ write_text (fun _ => txt "0") (fun _ => txt "1") f = Ok (txt "time lat lon elev" ++ newline :: (txt "0 1 1 1 1 1" ++ newline :: (txt "0 1 1 1 1 1" ++ newline :: []))) /\ num_parameters f = 0 /\
  exists g, set_all [(0, spot 60, [fz 1; fz 2]); (0, spot 50, [fz 3; fz 4])] (new_pfile true) = Ok g /\ num_parameters g = 2 /\ write_text (fun _ => txt "0") (fun _ => txt "1") g = Ok (txt "time lat lon elev" ++ newline :: (txt " param0 param00 1 1 1 1 1" ++ newline :: (txt "0 1 1 1 1 1" ++ newline :: []))).
Proof.
  split; [reflexivity|]. exists (match set_all table_calls (new_pfile false) with Ok f => f | _ => new_pfile true end). split; [reflexivity|]. split; [reflexivity|]. split; [reflexivity|].
  exists (match set_all [(0, spot 60, [fz 1; fz 2]); (0, spot 50, [fz 3; fz 4])] (new_pfile true) with Ok f => f | _ => new_pfile true end). split; [reflexivity|]. split; reflexivity.
Qed.
