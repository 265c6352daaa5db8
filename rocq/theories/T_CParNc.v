(** NetCDF parameter files of the client: C269-C271. *)
From Coq Require Import Ascii String Lia.
From Verif Require Import Base ListLib M_COpt S_COpt M_CUtil S_CUtil M_CTree S_CTree P_CTree M_CKrig M_CFile M_CNc S_CNc M_CPar S_CPar P_CPar M_CParNc S_CParNc P_CParNc5 P_CParNc6.
Local Open Scope Z_scope.

(** C269: reading.  Without a variable for the times only the first time is used; five dimensions, or coordinates that change with time, are undefined behaviour *)
Theorem C269_time_refuted : exists F g, pn_read sort_items pn_defaults false F = Ok g /\ (exists v, find_name (x_vars (pn_x F)) (txt "coefficient") = Some v /\ n_dims v = [0; 1; 2; 3] /\ find_name (pn_names F) (txt "time") = Some 0 /\ dim_size (pn_x F) 0 = 2 /\ n_data v [1; 0; 1; 0] = fz 11) /\
  forall gc, get_parameters gc g 1 (column 1) false = Ok [fz 1].
Proof. exact c269_time. Qed.
Print Assumptions C269_time_refuted.
Theorem C269_dimensions_refuted : exists F v, find_name (x_vars (pn_x F)) (txt "coefficient") = Some v /\ zlen (n_dims v) = 5 /\ pn_read sort_items pn_defaults false F = UB.
Proof. exact c269_dimensions. Qed.
Print Assumptions C269_dimensions_refuted.
Theorem C269_coordinates_refuted : exists F v, find_name (x_vars (pn_x F)) (txt "lat") = Some v /\ zlen (n_dims v) = 3 /\ pn_read sort_items pn_defaults false F = UB.
Proof. exact c269_coordinates. Qed.
Print Assumptions C269_coordinates_refuted.
Theorem C269_read_partial : forall srt o cycle F s, sorts_items srt -> shape_of o F s -> well_shaped (pn_x F) s -> well_placed (pn_x F) s ->
  exists g, pn_read srt o cycle F = Ok g /\ forall gc t u, (t < 0 -> forall k near, get_parameters gc g t k near = Abort) /\ (0 <= t -> time_for (pn_x F) s cycle t u ->
  (times_of (pn_x F) s <= u -> forall k near, get_parameters gc g t k near = Abort) /\
  (u < times_of (pn_x F) s -> (forall i j, inside (pn_x F) s i j -> last_there (pn_x F) s i j -> get_parameters gc g t (place_at s i j) false = Ok (set_at (pn_x F) s i j u)) /\
    (forall k, placed k -> (forall i j, inside (pn_x F) s i j -> ~ same_place (place_at s i j) k) -> get_parameters gc g t k false = Ok []))).
Proof. exact c269_read. Qed.
Print Assumptions C269_read_partial.
Example C269_example : sorts_items sort_items /\ shape_of pn_defaults mixed mixed_shape /\ well_shaped (pn_x mixed) mixed_shape /\ well_placed (pn_x mixed) mixed_shape /\
  time_for (pn_x mixed) mixed_shape false 1 1 /\ time_for (pn_x mixed) mixed_shape true 7 1 /\ place_at mixed_shape 1 0 = mixed_place 1 0 /\ set_at (pn_x mixed) mixed_shape 1 0 1 = [CMV; fz 1101] /\
  (x <- pn_read sort_items pn_defaults true mixed ;; get_parameters (fun _ _ _ _ => NaN) x 7 (mixed_place 1 0) false) = Ok [CMV; fz 1101].
Proof.
  split; [exact sort_items_ok|]. destruct mixed_ok as (A & B & C). split; [exact A|]. split; [exact B|]. split; [exact C|].
  split; [right; split; [vm_compute; reflexivity|]; split; [reflexivity|discriminate]|]. split; [right; split; [vm_compute; reflexivity|]; split; [discriminate|]; intros _; split; [vm_compute; split; [discriminate|reflexivity]|exists 3; reflexivity]|].
  split; [reflexivity|]. split; vm_compute; reflexivity.
Qed.

(** C270: the nearest point *)
Theorem C270_nearest_point : forall D srt o cycle F s t u k lat lon, sorts_items srt -> shape_of o F s -> well_shaped (pn_x F) s -> well_placed (pn_x F) s ->
  zero_at_itself D -> straight D -> 0 <= t -> time_for (pn_x F) s cycle t u -> u < times_of (pn_x F) s -> sited k lat lon -> exists g i j la lo, pn_read srt o cycle F = Ok g /\
  inside (pn_x F) s i j /\ sited (place_at s i j) la lo /\ get_parameters (lift4 D) g t k true = Ok (set_at (pn_x F) s i j u) /\
  (forall i' j' la' lo', inside (pn_x F) s i' j' -> sited (place_at s i' j') la' lo' -> (D lat lon la lo <= D lat lon la' lo')%Qc).
Proof. exact c270_nearest. Qed.
Print Assumptions C270_nearest_point.
Example C270_example : zero_at_itself l1 /\ straight l1 /\ sorts_items sort_items /\ shape_of pn_defaults mixed mixed_shape /\ well_shaped (pn_x mixed) mixed_shape /\ well_placed (pn_x mixed) mixed_shape /\
  time_for (pn_x mixed) mixed_shape false 1 1 /\ 1 < times_of (pn_x mixed) mixed_shape /\ sited (spot 61) (qz 61) (qz 0) /\ set_at (pn_x mixed) mixed_shape 1 0 1 = [CMV; fz 1101] /\
  (x <- pn_read sort_items pn_defaults false mixed ;; get_parameters (lift4 l1) x 1 (spot 61) true) = Ok [CMV; fz 1101].
Proof.
  split; [exact l1_zero|]. split; [exact l1_straight|]. split; [exact sort_items_ok|]. destruct mixed_ok as (A & B & C). split; [exact A|]. split; [exact B|]. split; [exact C|].
  split; [right; split; [vm_compute; reflexivity|]; split; [reflexivity|discriminate]|]. split; [vm_compute; reflexivity|]. split; [apply spot_sited; lia|]. split; vm_compute; reflexivity.
Qed.

(** C271: what is written is read again.  Not so with another name for the dimension of the parameters, or if the first place has no parameters *)
Theorem C271_name_refuted : exists h f0 f o, good_history h /\ all_sited h /\ set_all h (new_pfile false) = Ok f0 /\ recompute_tree sort_items f0 = Ok f /\ (forall gc, get_parameters gc f 0 (spot 10) false = Ok [fz 7]) /\
  forall gc, exists F, pn_write gc o f = Ok F /\ pn_read sort_items o false F = Abort.
Proof. exact c271_refuted. Qed.
Print Assumptions C271_name_refuted.
Theorem C271_other_names : forall srt gc o cycle f F, pn_write gc o f = Ok F -> ~ In (po_dim o) [txt "time"; txt "lon"; txt "lat"; txt "coeff"] -> po_xdim o = [] -> po_ydim o = [] -> pn_read srt o cycle F = Abort.
Proof. exact c271_name. Qed.
Print Assumptions C271_other_names.
Theorem C271_first_refuted : good_history lacking /\ all_sited lacking /\ exists f0 f, set_all lacking (new_pfile false) = Ok f0 /\ recompute_tree sort_items f0 = Ok f /\ (forall gc, get_parameters gc f 0 (spot 20) false = Ok [fz 2]) /\ forall gc o, pn_write gc o f = Abort.
Proof. exact c271_first. Qed.
Print Assumptions C271_first_refuted.
Theorem C271_round_trip_partial : forall srt gc cycle cycle' o h f0 f m e0 t0 p0 n, sorts_items srt -> good_history h -> all_sited h -> last_time h n -> n < 2147483646 -> set_all h (new_pfile cycle) = Ok f0 -> recompute_tree srt f0 = Ok f ->
  0 < m -> (forall t k p, latest h t k p -> p = [] \/ zlen p = m) -> In e0 h -> (forall e, In e h -> loc_ltb2 (where_ e) (where_ e0) = false) -> latest h t0 (where_ e0) p0 -> p0 <> [] ->
  po_dim o = txt "coeff" -> po_xdim o = [] -> po_ydim o = [] -> (forall x, In x [txt "lat"; txt "lon"; txt "latitude"; txt "longitude"; txt "altitude"; txt "time"] -> po_var o <> x) ->
  exists F g, pn_write gc o f = Ok F /\ pn_read srt o cycle' F = Ok g /\ forall t e p, 0 <= t <= n -> In e h -> latest h t (where_ e) p ->
    (p = [] -> get_parameters gc g t (where_ e) false = Ok (init1 m CMV)) /\ (p <> [] -> get_parameters gc g t (where_ e) false = Ok (map (fun v => if veqb v fill_float then CMV else v) p)).
Proof. exact c271. Qed.
Print Assumptions C271_round_trip_partial.
Example C271_example : let h := [(0, spot 20, [fz 2; fz 3]); (1, spot 10, [fz 4; fz 5]); (0, spot 10, []); (1, spot 20, [NaN; fz 6])] in
  good_history h /\ all_sited h /\ last_time h 1 /\ In (1, spot 10, [fz 4; fz 5]) h /\ (forall e, In e h -> loc_ltb2 (where_ e) (spot 10) = false) /\ latest h 1 (spot 10) [fz 4; fz 5] /\ (forall t k p, latest h t k p -> p = [] \/ zlen p = 2) /\
  (f0 <- set_all h (new_pfile false) ;; f <- recompute_tree sort_items f0 ;; F <- pn_write (fun _ _ _ _ => NaN) pn_defaults f ;; g <- pn_read sort_items pn_defaults false F ;;
   a <- get_parameters (fun _ _ _ _ => NaN) g 0 (spot 10) false ;; b <- get_parameters (fun _ _ _ _ => NaN) g 1 (spot 10) false ;; c <- get_parameters (fun _ _ _ _ => NaN) g 0 (spot 20) false ;; Ok (a, b, c)) = Ok ([CMV; CMV], [fz 4; fz 5], [fz 2; fz 3]).
Proof.
  cbn zeta. split; [intros e [<-|[<-|[<-|[<-|[]]]]]; (split; [unfold is_time, at_; cbn; lia|split; discriminate])|]. split; [intros e [<-|[<-|[<-|[<-|[]]]]]; eexists; eexists; apply spot_sited; lia|].
  split; [split; [lia|]; split; [intros e [<-|[<-|[<-|[<-|[]]]]]; cbn; lia|right; eexists; split; [right; left; reflexivity|reflexivity]]|]. split; [cbn; auto|]. split; [intros e [<-|[<-|[<-|[<-|[]]]]]; vm_compute; reflexivity|].
  split; [left; exists [(0, spot 20, [fz 2; fz 3])], (1, spot 10, [fz 4; fz 5]), [(0, spot 10, []); (1, spot 20, [NaN; fz 6])]; split; [reflexivity|]; split; [split; [reflexivity|vm_compute; split; reflexivity]|]; split; [reflexivity|]; intros e [<-|[<-|[]]] [A B]; [discriminate A|vm_compute in B; destruct B; discriminate]|].
  split; [|vm_compute; reflexivity]. intros t k p [(b & e & a & E & _ & <- & _)|[-> _]]; [|left; reflexivity]. assert (He : In e (b ++ e :: a)) by (apply in_or_app; right; left; reflexivity). rewrite <- E in He. destruct He as [<-|[<-|[<-|[<-|[]]]]]; [right|right|left|right]; reflexivity.
Qed.
