(** The client's files: C232-C243. *)
From Coq Require Import Lia Ascii String Sorting.Sorted.
From Verif Require Import Base ListLib QcTac M_COpt M_CUtil M_CCal M_CDown M_CFile S_CUtil S_CCal S_CFile P_CUtil P_CFile P_CFile2 P_CFile3 P_CFileEx.
Local Open Scope Z_scope.

(** C232: a registered field is returned *)
Theorem C232_registered : forall K F f v t, reached K F ->
  (in_time F t -> exists F', do1 K F (AddNew f v t) = Ok F') /\
  (forall F', do1 K F (AddNew f v t) = Ok F' ->
    (exists p, deref F' (Some p) = Ok f /\ forall w, same_name w v -> holds F' w t p) /\
    (forall w t' q, holds F w t' q -> ~ (same_name w v /\ t' = t) -> holds F' w t' q) /\
    (forall q g, deref F (Some q) = Ok g -> deref F' (Some q) = Ok g)).
Proof. exact c232. Qed.
Print Assumptions C232_registered.
Example C232_example : exists F', do1 temp (or_start (run temp start [Get vT 0 false])) (AddNew (one (fz 8)) vU 1) = Ok F' /\ holds F' vU 1 1 /\ holds F' vT 0 0 /\ deref F' (Some 1) = Ok (one (fz 8)) /\ deref F' (Some 0) = Ok (one (fz 5)).
Proof.
  eexists. split; [vm_compute; reflexivity|]. split; [apply (holds_run temp [Get vT 0 false; AddNew (one (fz 8)) vU 1]); vm_compute; reflexivity|]. split; [apply (holds_run temp [Get vT 0 false; AddNew (one (fz 8)) vU 1]); vm_compute; reflexivity|]. split; vm_compute; reflexivity.
Qed.

(** C233: the field of a variable and time stays the same.  False if a later time is read without the file's content *)
Theorem C233_stays_refuted : exists has content F ops F' v t p p' f g, let K := fresh_core has content in
  reached K F /\ run K F ops = Ok F' /\ (forall o, In o ops -> ~ replaces v t o) /\ provided K v /\ holds F v t p /\ deref F (Some p) = Ok f /\ holds F' v t p' /\ deref F' (Some p') = Ok g /\ p <> p' /\ f <> g.
Proof. exact c233_refuted. Qed.
Print Assumptions C233_stays_refuted.
Theorem C233_stays_partial : forall K F F' ops v t p, reached K F -> run K F ops = Ok F' -> holds F v t p -> (forall o, In o ops -> ~ replaces v t o) ->
  ((provided K v /\ forall o, In o ops -> ~ skips v o) \/ whole F v) -> holds F' v t p.
Proof. exact c233. Qed.
Print Assumptions C233_stays_partial.
Example C233_example : provided temp vT /\ exists F F', run temp start [Get vT 0 false] = Ok F /\ holds F vT 0 0 /\ run temp F [Get vT 1 false; Get vU 0 true; Init vU; AddNew (one (fz 8)) vT 1; Assign 0 (one (fz 7))] = Ok F' /\ holds F' vT 0 0.
Proof.
  split; [intros w E; unfold same_name in E; cbn [temp fresh_core k_has]; rewrite E; reflexivity|]. do 2 eexists. split; [vm_compute; reflexivity|]. split; [apply (holds_run temp [Get vT 0 false]); vm_compute; reflexivity|]. split; [vm_compute; reflexivity|].
  apply (holds_run temp [Get vT 0 false; Get vT 1 false; Get vU 0 true; Init vU; AddNew (one (fz 8)) vT 1; Assign 0 (one (fz 7))]); vm_compute; reflexivity.
Qed.

(** C234: times outside the file.  Undefined for a negative time of a variable not yet read *)
Theorem C234_outside_refuted : exists has content F v t, let K := fresh_core has content in reached K F /\ t < 0 /\ get_field K F v t false = UB.
Proof. exact c234_refuted. Qed.
Print Assumptions C234_outside_refuted.
Theorem C234_outside_partial : forall K F v t skip, reached K F -> ~ in_time F t -> (forall r, get_field K F v t skip <> Ok r) /\ (0 <= t -> get_field K F v t skip = Abort) /\ (forall t' p, holds F v t' p -> get_field K F v t skip = Abort).
Proof. exact c234. Qed.
Print Assumptions C234_outside_partial.
Example C234_example : reached temp start /\ ~ in_time start 2 /\ get_field temp start vT 2 false = Abort /\ get_field temp (or_start (run temp start [Get vT 0 false])) vT (-1) false = Abort.
Proof. split; [apply (start_reached temp []); reflexivity|]. split; [unfold in_time; cbn; lia|]. split; vm_compute; reflexivity. Qed.

(** C235: what is read the first time *)
Theorem C235_content : forall has content F v t f, let K := fresh_core has content in reached K F -> in_time F t -> (forall p, ~ holds F v t p) -> has v = true -> content v t = Ok f ->
  exists p F', get_field K F v t false = Ok (Some p, F') /\ deref F' (Some p) = Ok f /\ holds F' v t p /\ (forall w t' q, holds F w t' q -> q <> p /\ holds F' w t' q) /\
    (forall q g, deref F (Some q) = Ok g -> deref F' (Some q) = Ok g).
Proof. exact c235_file. Qed.
Print Assumptions C235_content.
Theorem C235_missing : forall K F v t skip, reached K F -> in_time F t -> (forall p, ~ holds F v t p) -> (skip = true \/ k_has K v = false) ->
  exists p F', get_field K F v t skip = Ok (Some p, F') /\ (forall t', in_time F t' -> exists q f, holds F' v t' q /\ deref F' (Some q) = Ok f /\ all_missing F f) /\ holds F' v t p /\
    (forall w t' q, ~ same_name w v -> holds F w t' q -> holds F' w t' q) /\ (forall q g, deref F (Some q) = Ok g -> deref F' (Some q) = Ok g).
Proof. exact c235_empty. Qed.
Print Assumptions C235_missing.
Example C235_example : exists F F', get_field temp start vT 1 false = Ok (Some 0, F) /\ deref F (Some 0) = Ok (one (fz 6)) /\ get_field temp start vU 1 false = Ok (Some 1, F') /\ deref F' (Some 1) = Ok (one CMV) /\ deref F' (Some 0) = Ok (one CMV).
Proof. do 2 eexists. split; [vm_compute; reflexivity|]. split; [vm_compute; reflexivity|]. split; [vm_compute; reflexivity|]. split; vm_compute; reflexivity. Qed.

(** C236: the fields of different variables or times are different objects.  False for text files *)
Theorem C236_separate_refuted : exists lines d times lats lons elevs fields F v w t p, text_open lines = Ok (d, times, lats, lons, elevs, fields) /\ run text_core (text_state d fields) [Get v t false; Get w t false] = Ok F /\ ~ same_name v w /\ holds F v t p /\ holds F w t p /\
  (exists f g F', assign F p g = Ok F' /\ deref F (Some p) = Ok f /\ deref F' (Some p) = Ok g /\ f <> g).
Proof. exact c236_refuted. Qed.
Print Assumptions C236_separate_refuted.
Theorem C236_separate_partial : forall has content F v t p w t' q, let K := fresh_core has content in reached K F -> holds F v t p -> holds F w t' q -> ~ (same_name v w /\ t = t') ->
  p <> q /\ (forall f, exists F', assign F p f = Ok F' /\ deref F' (Some p) = Ok f /\ deref F' (Some q) = deref F (Some q)).
Proof. exact c236. Qed.
Print Assumptions C236_separate_partial.
Example C236_example : exists F, run temp start [Get vT 0 false; Get vT 1 false; Get vU 1 false] = Ok F /\ holds F vT 0 0 /\ holds F vT 1 1 /\ holds F vU 0 2 /\ holds F vU 1 3.
Proof. eexists. split; [vm_compute; reflexivity|]. do 3 (split; [apply (holds_run temp [Get vT 0 false; Get vT 1 false; Get vU 1 false]); vm_compute; reflexivity|]). apply (holds_run temp [Get vT 0 false; Get vT 1 false; Get vU 1 false]); vm_compute; reflexivity. Qed.

(** C237: a variable that is initialised, or downscaled by the bypass downscaler *)
Theorem C237_initialised : forall K F v, reached K F -> 0 < d_t (f_dims F) ->
  exists F', init_new K F v = Ok F' /\ bypass K F v = Ok F' /\ has_variable K F' v = true /\
    (forall w t p, holds F w t p -> holds F' w t p) /\ (forall q g, deref F (Some q) = Ok g -> deref F' (Some q) = Ok g) /\
    (has_variable K F v = true -> F' = F) /\
    (has_variable K F v = false -> forall t, in_time F t -> exists p f, holds F' v t p /\ deref F' (Some p) = Ok f /\ all_missing F f).
Proof. exact c237. Qed.
Print Assumptions C237_initialised.
Example C237_example : reached temp start /\ 0 < d_t (f_dims start) /\ has_variable temp start vU = false /\ exists F', bypass temp start vU = Ok F' /\ has_variable temp F' vU = true /\ deref F' (Some 1) = Ok (one CMV).
Proof. split; [apply (start_reached temp []); reflexivity|]. split; [reflexivity|]. split; [reflexivity|]. eexists. split; [vm_compute; reflexivity|]. split; vm_compute; reflexivity. Qed.

(** C238: after the cache was cleared the file is read again.  False for text files *)
Theorem C238_cleared_refuted : exists lines d times lats lons elevs fields F F' v t p q f g, text_open lines = Ok (d, times, lats, lons, elevs, fields) /\ run text_core (text_state d fields) [Get v t false; Assign p g] = Ok F /\
  get_field text_core (clear_fields F) v t false = Ok (Some q, F') /\ deref F' (Some q) = Ok g /\ znth fields t = Ok f /\ f <> g.
Proof. exact c238_refuted. Qed.
Print Assumptions C238_cleared_refuted.
Theorem C238_cleared_partial : forall has content F v t f, let K := fresh_core has content in reached K F -> in_time F t -> has v = true -> content v t = Ok f ->
  exists p F', get_field K (clear_fields F) v t false = Ok (Some p, F') /\ deref F' (Some p) = Ok f.
Proof. exact c238. Qed.
Print Assumptions C238_cleared_partial.
Example C238_example : exists F F', run temp start [Get vT 0 false; Assign 0 (one (fz 9))] = Ok F /\ deref F (Some 0) = Ok (one (fz 9)) /\ get_field temp (clear_fields F) vT 0 false = Ok (Some 1, F') /\ deref F' (Some 1) = Ok (one (fz 5)).
Proof. do 2 eexists. split; [vm_compute; reflexivity|]. split; [vm_compute; reflexivity|]. split; vm_compute; reflexivity. Qed.

(** C239: aliases.  False if two stand for variables with the same name and different levels *)
Theorem C239_levels_refuted : exists has content F a b v w t p q f g F1 F2, let K := fresh_core has content in reached K F /\ find_name (f_alias F) a = Some v /\ find_name (f_alias F) b = Some w /\ a <> b /\ v_level v <> v_level w /\ has w = true /\ content v t = Ok f /\ content w t = Ok g /\ f <> g /\
  get_named K F a t = Ok (Some p, F1) /\ get_named K F1 b t = Ok (Some q, F2) /\ deref F2 (Some q) = Ok f.
Proof. exact c239_refuted. Qed.
Print Assumptions C239_levels_refuted.
Theorem C239_alias_partial : forall has content F n w t f, let K := fresh_core has content in reached K F -> in_time F t -> find_name (f_alias F) n = Some w -> (forall x, In x (f_vars F) -> v_name x <> n) ->
  (forall p, holds F w t p -> exists F', get_named K F n t = Ok (Some p, F')) /\
  ((forall p, ~ holds F w t p) -> has w = true -> content w t = Ok f -> exists p F', get_named K F n t = Ok (Some p, F') /\ deref F' (Some p) = Ok f).
Proof. exact c239_alias. Qed.
Print Assumptions C239_alias_partial.
Example C239_example : find_name (f_alias aliased) (name "high") = Some (at_level 10) /\ exists F', get_named levels aliased (name "high") 1 = Ok (Some 0, F') /\ deref F' (Some 0) = Ok (one (fz 10)).
Proof. split; [reflexivity|]. eexists. split; vm_compute; reflexivity. Qed.

(** C240: reading a text file *)
Theorem C240_text_file : forall lines d times lats lons elevs fields, (forall x, In x lines -> finite_line x) -> text_open lines = Ok (d, times, lats, lons, elevs, fields) ->
  exists locs, (forall t, In t times <-> exists x, In x lines /\ fst x = t) /\ StronglySorted Z.lt times /\
    (forall l, In l locs <-> exists x, In x lines /\ place l x) /\ NoDup locs /\
    d_y d = zlen locs /\ d_x d = 1 /\ d_t d = zlen times /\ zlen fields = d_t d /\ (forall x, In x lines -> zlen (snd x) = d_e d + 3) /\
    lats = map (fun l => [l_lat l]) locs /\ elevs = map (fun l => [l_elev l]) locs /\ (forall j l, znth locs j = Ok l -> exists x, norm_lon (l_lon l) = Ok x /\ znth lons j = Ok [x]) /\
    (forall i t j l, znth times i = Ok t -> znth locs j = Ok l -> exists f, znth fields i = Ok f /\ of_size d f /\ forall e, 0 <= e < d_e d ->
       (forall vs, last_line lines t l vs -> f_get f j 0 e = znth vs e) /\ ((forall x, In x lines -> fst x = t -> ~ place l x) -> f_get f j 0 e = Ok CMV)).
Proof. exact c240. Qed.
Print Assumptions C240_text_file.
Theorem C240_text_file_opens : forall lines n, lines <> [] -> 0 <= n -> (forall x, In x lines -> finite_line x /\ zlen (snd x) = n + 3 /\
    exists lat lon, znth (snd x) 0 = Ok (Fin lat) /\ znth (snd x) 1 = Ok (Fin lon) /\ (qz (-90) <= lat <= qz 90)%Qc /\ (qz (-180) <= lon <= qz 180)%Qc /\ lon <> 0%Qc) ->
  exists d times lats lons elevs fields, text_open lines = Ok (d, times, lats, lons, elevs, fields) /\ d_e d = n.
Proof. exact c240_opens. Qed.
Print Assumptions C240_text_file_opens.
Example C240_example : (forall x, In x two_lines -> finite_line x) /\ text_open two_lines = Ok (two_times, [0; 6], [[fz 60]], [[fz 10]], [[fz 100]], [one (fz 3); one (fz 4)]) /\ last_line two_lines 6 {| l_lat := fz 60; l_lon := fz 10; l_elev := fz 100 |} [fz 4].
Proof.
  split; [|split; [exact two_lines_open|exists [(0, [fz 60; fz 10; fz 100; fz 3])], []; split; [reflexivity|intros x []]]].
  intros x [<-|[<-|[]]] v IN; cbn in IN; repeat (destruct IN as [<-|IN]; [eexists; reflexivity|]); destruct IN.
Qed.

(** C241: a text file that was written is not the one that is read *)
Theorem C241_text_round_trip_refuted : exists lines d times lats lons elevs fields lines', text_open lines = Ok (d, times, lats, lons, elevs, fields) /\ point_write (fun v => v) d times fields = Ok lines' /\ forall r, text_open lines' <> Ok r.
Proof. exact c241_refuted. Qed.
Print Assumptions C241_text_round_trip_refuted.
Theorem C241_text_members_partial : forall rd d times fields lines d' times' lats lons elevs fields', point_write rd d times fields = Ok lines -> text_open lines = Ok (d', times', lats, lons, elevs, fields') -> d_e d' = d_e d - 3.
Proof. exact c241. Qed.
Print Assumptions C241_text_members_partial.
Example C241_example : let d := {| d_y := 1; d_x := 1; d_e := 4; d_t := 1 |} in let f := {| f_values := [fz 1; fz 2; fz 3; fz 4]; f_ny := 1; f_nx := 1; f_ne := 4 |} in
  point_write (fun v => v) d [7] [f] = Ok [(7, [fz 1; fz 2; fz 3; fz 4])] /\ exists r, text_open [(7, [fz 1; fz 2; fz 3; fz 4])] = Ok r.
Proof. cbv zeta. split; [vm_compute; reflexivity|]. eexists. vm_compute. reflexivity. Qed.

(** C242: a point file that was written.  False unless the times are the numbers of the rows *)
Theorem C242_point_round_trip_refuted : exists d times fields lines i v, d_y d = 1 /\ d_x d = 1 /\ zlen times = d_t d /\ NoDup times /\ point_write (fun v => v) d times fields = Ok lines /\ point_open lines None None 0 = Ok (d_e d, times) /\
  get4 fields i 0 0 0 = Ok v /\ cvalid v = true /\ exists f, point_read lines d i = Ok f /\ f_get f 0 0 0 = Ok CMV.
Proof. exact c242_refuted. Qed.
Print Assumptions C242_point_round_trip_refuted.
Theorem C242_point_round_trip_partial : forall rd d times fields lines t i, d_y d = 1 -> d_x d = 1 -> 0 <= d_e d -> NoDup times -> zlen times = d_t d -> point_write rd d times fields = Ok lines -> 
  (znth times i = Ok t -> exists f, point_read lines d t = Ok f /\ forall e, 0 <= e < d_e d -> exists v, get4 fields i 0 0 e = Ok v /\ f_get f 0 0 e = Ok (rd v)) /\
  (~ In t times -> exists f, point_read lines d t = Ok f /\ forall e, 0 <= e < d_e d -> f_get f 0 0 e = Ok CMV) /\
  (forall u, 0 < d_t d -> u <> -999 -> d_e d <> -999 -> point_open lines None None u = Ok (d_e d, times)).
Proof. exact c242. Qed.
Print Assumptions C242_point_round_trip_partial.
Example C242_example : point_write (fun v => v) two_times [0; 1] [one (fz 3); one (fz 4)] = Ok [(0, [fz 3]); (1, [fz 4])] /\ point_read [(0, [fz 3]); (1, [fz 4])] two_times 1 = Ok (one (fz 4)).
Proof. split; vm_compute; reflexivity. Qed.

(** C243: the lowest pressure *)
Theorem C243_lowest_pressure : forall fields first last j (c : Z -> Z), (forall t, first <= t <= last -> exists v, get4 fields t 0 j 0 = Ok v /\ to_int v = Ok (c t)) ->
  ((forall t, first <= t <= last -> c t = -999) -> norcom_value fields first last j = Abort) /\
  (forall t0, first <= t0 <= last -> c t0 <> -999 -> exists t1, first <= t1 <= last /\ c t1 <> -999 /\ (forall t, first <= t <= last -> c t <> -999 -> c t1 <= c t) /\ norcom_value fields first last j = Ok (Z.quot (c t1) 100)).
Proof. exact c243. Qed.
Print Assumptions C243_lowest_pressure.
Example C243_example : norcom_value [one (fz 101325); one CMV; one (fz 99950); one (fz 99999)] 0 3 0 = Ok 999 /\ norcom_value [one CMV] 0 0 0 = Abort.
Proof. split; vm_compute; reflexivity. Qed.
