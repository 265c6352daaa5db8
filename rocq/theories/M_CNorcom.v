(** Model of two file formats of the client: src/client/File/NorcomQnh.cpp (opening, the text that is written) and src/client/File/Fake.cpp.
    Simplifications: options are given as values already parsed (M_COpt); times are whole seconds; the numbers of the fake file are exact. *)
From Coq Require Import Ascii String.
From Verif Require Import Base M_COpt M_CDate M_CUtil M_CCal M_CDown M_CKrig M_CFile M_CPar M_CParNc.
Local Open Scope Z_scope.

(** the options lats, lons, elevs, names, numTimes, startTime and endTime, if given *)
Record nq_options := { q_lats : option vec; q_lons : option vec; q_elevs : option vec; q_names : option (list str); q_num : option Z; q_start : option Z; q_end : option Z }.
Record norcom := { nq_lats : vec; nq_lons : vec; nq_elevs : vec; nq_names : list str; nq_times : list Z; nq_start : Z; nq_end : Z }.
(** FileNorcomQnh::FileNorcomQnh, NorcomQnh.cpp:9-75, with setLats and setLons of M_CDown *)
Definition norcom_open (o : nq_options) : res norcom :=
  lats <- or_abort (q_lats o) ;; lons <- or_abort (q_lons o) ;; elevs <- or_abort (q_elevs o) ;; names <- or_abort (q_names o) ;; num <- or_abort (q_num o) ;;
  if negb (zlen lats =? zlen lons) || negb (zlen lats =? zlen elevs) || negb (zlen lats =? zlen names) then Abort else
  if existsb lat_bad lats then Abort else
  if existsb lon_bad lons then Abort else
  lons <- mapM norm_lon lons ;;
  first <- or_abort (q_start o) ;; last <- or_abort (q_end o) ;;
  if last <? first then Abort else
  Ok {| nq_lats := lats; nq_lons := lons; nq_elevs := elevs; nq_names := names; nq_times := zrange 0 num; nq_start := first; nq_end := last |}.
(** an int printed to a stream; numbers have at most 20 digits *)
Fixpoint decimal (fuel : nat) (n : Z) (acc : str) : str :=
  match fuel with O => acc | S k => let acc := ascii_of_nat (48 + Z.to_nat (n mod 10)) :: acc in if n <? 10 then acc else decimal k (n / 10) acc end.
Definition show_int (n : Z) : str := if n <? 0 then "-"%char :: decimal 20 (- n) [] else decimal 20 n [].
(** std::setfill and std::setw, std::right or std::left *)
Definition pad_left (c : ascii) (w : Z) (s : str) : str := repeat c (Z.to_nat (w - zlen s)) ++ s.
Definition pad_right (c : ascii) (w : Z) (s : str) : str := s ++ repeat c (Z.to_nat (w - zlen s)).
Definition CR : ascii := ascii_of_nat 13.
Definition LF : ascii := ascii_of_nat 10.
(** getNorcomTimeStamp, NorcomQnh.cpp:140-150 *)
Definition time_stamp (t : Z) : res str :=
  date <- get_date t ;; Ok (pad_left "0"%char 2 (show_int (Z.rem date 100)) ++ pad_left "0"%char 4 (show_int (Z.quot (get_time t) 100))).
(** writeCore, NorcomQnh.cpp:85-138, for at least one variable, whose fields are given; norcom_value of M_CFile is the number for a station *)
Definition longest (names : list str) : Z := fold_left (fun m n => if m <? zlen n then zlen n else m) names 0.
Definition norcom_line (N : norcom) (fields : list field) (j : Z) : res str :=
  name <- znth (nq_names N) j ;; v <- norcom_value fields (nq_start N) (nq_end N) j ;;
  Ok (txt "EST MIN QNH " ++ pad_right " "%char (longest (nq_names N)) name ++ txt ": " ++ pad_left "0"%char 4 (show_int v) ++ txt " HPA" ++ [CR; LF]).
Definition norcom_write (N : norcom) (times : list Z) (now : Z) (fields : list field) : res str :=
  s0 <- time_stamp now ;; t1 <- znth times (nq_start N) ;; s1 <- time_stamp t1 ;; t2 <- znth times (nq_end N) ;; s2 <- time_stamp t2 ;;
  lines <- mapM (norcom_line N fields) (zrange 0 (zlen (nq_lats N))) ;;
  Ok (txt "FBNO52 ENNC " ++ s0 ++ [CR; CR; LF] ++ txt "VALID " ++ s1 ++ txt " - " ++ s2 ++ txt " UTC." ++ [CR; LF] ++ concat lines).

(** FileFake::FileFake, Fake.cpp:2-70: sizes are 10, 10, 2 and 10 unless given *)
Record fake := { fk_dims : dims; fk_lats : list vec; fk_lons : list vec; fk_times : list Z }.
Definition fake_open (nLat nLon nEns nTime : option Z) : res fake :=
  let get (o : option Z) n := match o with Some k => k | None => n end in
  let y := get nLat 10 in let x := get nLon 10 in let e := get nEns 2 in let t := get nTime 10 in
  if negb (ivalid y) || (y <=? 0) then Abort else if negb (ivalid y) || (x <=? 0) then Abort else if negb (ivalid e) || (e <=? 0) then Abort else if negb (ivalid t) || (t <=? 0) then Abort else
  lats <- tab2 y x (fun i j => Ok (Fin (qz 50 + qz 10 * qz i / qz y))) ;;
  lons <- tab2 y x (fun i j => Ok (Fin (qz 0 + qz 10 * qz j / qz x))) ;;
  if existsb (existsb lat_bad) lats then Abort else
  if existsb (existsb lon_bad) lons then Abort else
  lons <- mapM (mapM norm_lon) lons ;;
  Ok {| fk_dims := {| d_y := y; d_x := x; d_e := e; d_t := t |}; fk_lats := lats; fk_lons := lons; fk_times := zrange 0 t |}.
