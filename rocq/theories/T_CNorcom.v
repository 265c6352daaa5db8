(** The QNH file and the fake file of the client: C277-C280. *)
From Coq Require Import Ascii String Lia.
From Verif Require Import Base ListLib M_COpt M_CDate S_CDate M_CUtil M_CCal M_CFile S_CFile M_CParNc M_CNorcom S_CNorcom P_CNorcom P_CNorcom2.
Local Open Scope Z_scope.

(** C277: opening a QNH file *)
Theorem C277_opened : forall o lats lons elevs names num first last, q_lats o = Some lats -> q_lons o = Some lons -> q_elevs o = Some elevs -> q_names o = Some names -> q_num o = Some num -> q_start o = Some first -> q_end o = Some last ->
  zlen lons = zlen lats -> zlen elevs = zlen lats -> zlen names = zlen lats -> (forall v, In v lats -> in_limits 90 v) -> (forall v, In v lons -> in_limits 360 v /\ v <> fz 0) -> first <= last ->
  exists N, norcom_open o = Ok N /\ nq_lats N = lats /\ nq_elevs N = elevs /\ nq_names N = names /\ nq_start N = first /\ nq_end N = last /\ nq_times N = zrange 0 num /\ zlen (nq_lons N) = zlen lats /\
    forall j q, znth lons j = Ok (Fin q) -> exists r k, znth (nq_lons N) j = Ok (Fin r) /\ (qz (-180) <= r <= qz 180)%Qc /\ (q = r + qz (360 * k))%Qc.
Proof. exact c277_ok. Qed.
Print Assumptions C277_opened.
Theorem C277_only : forall o N, norcom_open o = Ok N -> exists lats lons elevs names num, q_lats o = Some lats /\ q_lons o = Some lons /\ q_elevs o = Some elevs /\ q_names o = Some names /\ q_num o = Some num /\ q_start o = Some (nq_start N) /\ q_end o = Some (nq_end N) /\
  zlen lons = zlen lats /\ zlen elevs = zlen lats /\ zlen names = zlen lats /\ nq_start N <= nq_end N /\ (forall q, In (Fin q) lats -> in_limits 90 (Fin q)) /\ (forall q, In (Fin q) lons -> in_limits 360 (Fin q)).
Proof. exact c277_only. Qed.
Print Assumptions C277_only.
Example C277_example : (N <- norcom_open qnh_options ;; Ok (nq_lons N, nq_times N, nq_start N, nq_end N)) = Ok ([fz 10; fz (-170)], [0; 1], 0, 2) /\
  norcom_open {| q_lats := Some [fz 60; fz 91]; q_lons := q_lons qnh_options; q_elevs := q_elevs qnh_options; q_names := q_names qnh_options; q_num := Some 2; q_start := Some 0; q_end := Some 1 |} = Abort.
Proof. split; vm_compute; reflexivity. Qed.

(** C278: time stamps *)
Theorem C278_time_stamp : forall t d hh mm, moment t d hh mm -> time_stamp t = Ok (stamp d hh mm).
Proof. exact c278_stamp. Qed.
Print Assumptions C278_time_stamp.
Example C278_example : moment 951827696 29 12 34 /\ time_stamp 951827696 = Ok (txt "291234") /\ stamp 29 12 34 = txt "291234".
Proof. split; [exact leap_moment|]. split; vm_compute; reflexivity. Qed.

(** C279: the text.  A last time after the end of the file is undefined behaviour *)
Theorem C279_late_refuted : exists o N, norcom_open o = Ok N /\ norcom_write N (nq_times N) 0 (qnh_fields (zlen (nq_times N))) = UB.
Proof. exact c279_late. Qed.
Print Assumptions C279_late_refuted.
Theorem C279_text_partial : forall N times now t1 t2 d0 h0 m0 d1 h1 m1 d2 h2 m2 fields w (m : Z -> Z), zlen (nq_names N) = zlen (nq_lats N) -> widest (nq_names N) w -> znth times (nq_start N) = Ok t1 -> znth times (nq_end N) = Ok t2 ->
  moment now d0 h0 m0 -> moment t1 d1 h1 m1 -> moment t2 d2 h2 m2 -> (forall j, 0 <= j < zlen (nq_lats N) -> smallest fields (nq_start N) (nq_end N) j (m j) /\ 0 <= m j < 1000000) ->
  exists lines, zlen lines = zlen (nq_lats N) /\ (forall j name, znth (nq_names N) j = Ok name -> exists s, znth lines j = Ok s /\ a_line w name (m j) s) /\
    norcom_write N times now fields = Ok (txt "FBNO52 ENNC " ++ stamp d0 h0 m0 ++ [CR; CR; LF] ++ txt "VALID " ++ stamp d1 h1 m1 ++ txt " - " ++ stamp d2 h2 m2 ++ txt " UTC." ++ [CR; LF] ++ concat lines).
Proof. exact c279. Qed.
Print Assumptions C279_text_partial.
Theorem C279_width : forall w name m s, a_line w name m s -> zlen s = w + 24.
Proof. exact c279_width. Qed.
Print Assumptions C279_width.
Example C279_example : moment 951827696 29 12 34 /\ smallest (qnh_fields 3) 0 2 0 101305 /\ smallest (qnh_fields 3) 0 2 1 99900 /\ widest [txt "A"; txt "Oslo"] 4 /\
  (N <- norcom_open qnh_options ;; norcom_write N [951827696; 951827696; 951827696] 951827696 (qnh_fields 3)) =
  Ok (txt "FBNO52 ENNC 291234" ++ [CR; CR; LF] ++ txt "VALID 291234 - 291234 UTC." ++ [CR; LF] ++ txt "EST MIN QNH A   : 1013 HPA" ++ [CR; LF] ++ txt "EST MIN QNH Oslo: 0999 HPA" ++ [CR; LF]).
Proof. split; [exact leap_moment|]. split; [exact (proj1 qnh_smallest)|]. split; [exact (proj2 qnh_smallest)|]. split; [exact qnh_widest|vm_compute; reflexivity]. Qed.

(** C280: fake files.  Whatever the sizes, opening one is undefined behaviour *)
Theorem C280_fake_refuted : exists a b c d : option Z, (forall n, In (Some n) [a; b; c; d] -> 0 < n) /\ forall K, fake_open a b c d <> Ok K.
Proof. exact c280_default. Qed.
Print Assumptions C280_fake_refuted.
Theorem C280_undefined : forall a b c d, (forall n, In (Some n) [a; b; c; d] -> 0 < n) -> fake_open a b c d = UB.
Proof. exact c280. Qed.
Print Assumptions C280_undefined.
Theorem C280_sizes : forall a b c d n, In (Some n) [a; b; c; d] -> n <= 0 -> fake_open a b c d = Abort.
Proof. exact c280_sizes. Qed.
Print Assumptions C280_sizes.
Example C280_example : fake_open None None None None = UB /\ fake_open (Some 3) None (Some 0) None = Abort.
Proof. split; vm_compute; reflexivity. Qed.
