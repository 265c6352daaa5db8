(** Model of the client's parameter files: src/client/ParameterFile/{ParameterFile,Text,Simple}.cpp.
    [gc] and [srt] are as in M_CTree.  A parameter set is the list of its values.  Simplification: no limit on memory; the times are within the range of int. *)
From Coq Require Import Ascii String.
From Verif Require Import Base M_Stat M_COpt M_CUtil M_CText M_CTree.
Local Open Scope Z_scope.

(** ParameterFile.h:62-87: std::map<Location, std::vector<Parameters>, CmpIgnoreElevation> as the list of its entries in order, mIsTimeDependent, mMaxTime,
    mAllowCycling, mNearestNeighbourTree and mLocations *)
Definition entries := list (location * list vec).
Record pfile := { p_map : entries; p_timed : bool; p_max : Z; p_cycle : bool; p_tree : tree; p_locs : list location }.
(** ParameterFile::ParameterFile, ParameterFile.cpp:9-19; KDTree.cpp:9-13: no root *)
Definition new_pfile (cycle : bool) : pfile := {| p_map := []; p_timed := false; p_max := 0; p_cycle := cycle; p_tree := Nil; p_locs := [] |}.

(** std::map needs a strict weak order: a key with NaN is undefined behaviour *)
Definition is_nan (v : val) : bool := match v with NaN => true | _ => false end.
Definition bad_key (l : location) : bool := is_nan (l_lat l) || is_nan (l_lon l).
(** std::map::find: keys are the same if neither is less than the other *)
Definition same_key (a b : location) : bool := negb (loc_ltb2 a b) && negb (loc_ltb2 b a).
Fixpoint lookup (m : entries) (k : location) : option (location * list vec) :=
  match m with [] => None | (l, v) :: t => if same_key l k then Some (l, v) else lookup t k end.
Definition find (m : entries) (k : location) : res (option (location * list vec)) := if bad_key k then UB else Ok (lookup m k).
(** std::map::operator[] followed by an assignment; the key of an existing entry stays (with its elevation) *)
Fixpoint assign (m : entries) (k : location) (v : list vec) : entries :=
  match m with
  | [] => [(k, v)]
  | (l, w) :: t => if loc_ltb2 l k then (l, w) :: assign t k v else if loc_ltb2 k l then (k, v) :: m else (l, v) :: t
  end.
(** std::vector::resize: new elements are empty parameter sets *)
Definition resize (l : list vec) (n : Z) : list vec := firstn (Z.to_nat n) l ++ repeat [] (Z.to_nat n - length l).

(** ParameterFile::setParameters, ParameterFile.cpp:186-194; line 189 compares with the time as an unsigned number *)
Definition set_parameters (p : vec) (t : Z) (k : location) (f : pfile) : res pfile :=
  let mx := Z.max (p_max f) t in
  o <- find (p_map f) k ;;
  let old := match o with Some (_, v) => v | None => [] end in
  let sized := if zlen old <=? to_size t then resize old (mx + 1) else old in
  v <- zset sized t p ;;
  Ok {| p_map := assign (p_map f) k v; p_timed := p_timed f || (0 <? t); p_max := mx; p_cycle := p_cycle f; p_tree := p_tree f; p_locs := p_locs f |}.
(** ParameterFile.cpp:195-197: for no location in particular *)
Definition anywhere : location := {| l_lat := CMV; l_lon := CMV; l_elev := CMV |}.
Definition set_global (p : vec) (t : Z) (f : pfile) : res pfile := set_parameters p t anywhere f.

(** ParameterFile::isLocationDependent, ParameterFile.cpp:223-231 and Text.cpp:212-220; line 226 dereferences begin() of a map that may be empty *)
Definition location_dependent (f : pfile) : res bool :=
  if 1 <? zlen (p_map f) then Ok true
  else match p_map f with [] => UB | (l, _) :: _ => Ok (cvalid (l_lat l) && cvalid (l_lon l)) end.

(** ParameterFile::recomputeTree, ParameterFile.cpp:21-35: the locations are appended to those of earlier calls *)
Definition recompute_tree (srt : bool -> list item -> list item) (f : pfile) : res pfile :=
  dep <- location_dependent f ;;
  if dep then
    let ls := map fst (p_map f) in
    t <- build_tree srt (map (fun l => [l_lat l]) ls) (map (fun l => [l_lon l]) ls) ;;
    Ok {| p_map := p_map f; p_timed := p_timed f; p_max := p_max f; p_cycle := p_cycle f; p_tree := t; p_locs := p_locs f ++ ls |}
  else Ok f.

(** ParameterFile.cpp:58-72 and 100-114: the time to use *)
Definition use_time (f : pfile) (t : Z) : res Z :=
  if t <? 0 then Abort else
  let time := if p_timed f then t else 0 in
  let time := if (0 <? p_max f) && p_cycle f then (if p_max f + 1 <=? time then Z.rem time (p_max f + 1) else time) else time in
  if p_max f <? time then Abort else Ok time.
(** ParameterFile.cpp:87-91 and 135-139 *)
Definition at_time (v : list vec) (t : Z) : res vec := if t <? zlen v then znth v t else Ok [].

(** ParameterFile::getParameters(time), ParameterFile.cpp:51-93 *)
Definition get_global (f : pfile) (t : Z) : res vec :=
  time <- use_time f t ;;
  dep <- location_dependent f ;;
  if dep then Abort else
  match p_map f with (_, v) :: _ => at_time v time | [] => UB end.

(** ParameterFile.cpp:152, 161 and 170 *)
Definition has_at (v : list vec) (t : Z) : res bool := if t <? zlen v then p <- znth v t ;; Ok (negb (zlen p =? 0)) else Ok false.
(** Location::getDistance, Location.cpp:55-57 *)
Definition loc_distance (gc : val -> val -> val -> val -> val) (a b : location) : res val := get_distance gc (l_lat a) (l_lon a) (l_lat b) (l_lon b).
(** ParameterFile::getNearestLocation, ParameterFile.cpp:142-184: None if it returns false *)
Definition nearest_location (gc : val -> val -> val -> val -> val) (f : pfile) (t : Z) (k : location) : res (option location) :=
  if zlen (p_map f) =? 1 then match p_map f with (l, _) :: _ => Ok (Some l) | [] => UB end
  else
    exact <- find (p_map f) k ;;
    it2 <- match exact with
           | Some e => Ok (Some e)
           | None => '(i, _) <- tree_nearest gc (p_tree f) (l_lat k) (l_lon k) ;; l <- znth (p_locs f) i ;; find (p_map f) l
           end ;;
    match it2 with
    | None => UB
    | Some (l2, v2) =>
        here <- has_at v2 t ;;
        if here then Ok (Some l2)
        else
          there <- match exact with Some (_, v) => has_at v t | None => Ok false end ;;
          if there then Ok (match exact with Some (l, _) => Some l | None => None end)
          else
            '(minDist, best) <- foldM (fun (st : val * option location) (e : location * list vec) => let '(minDist, best) := st in
              dist <- loc_distance gc k (fst e) ;;
              if negb (cvalid minDist) || (cvalid dist && vltb dist minDist) then
                has <- has_at (snd e) t ;; Ok (if has then (dist, Some (fst e)) else st)
              else Ok st) (CMV, None) (p_map f) ;;
            Ok (if cvalid minDist then best else None)
    end.
(** ParameterFile::getParameters(time, location, nearest), ParameterFile.cpp:94-140 *)
Definition get_parameters (gc : val -> val -> val -> val -> val) (f : pfile) (t : Z) (k : location) (near : bool) : res vec :=
  time <- use_time f t ;;
  if zlen (p_map f) =? 0 then Ok [] else
  loc <- (if near then nearest_location gc f time k else Ok (Some k)) ;;
  match loc with
  | None => Ok []
  | Some l => o <- find (p_map f) l ;; match o with None => Ok [] | Some (_, v) => at_time v time end
  end.

(** ParameterFile::getTimes, ParameterFile.cpp:207-216: a set of int in increasing order *)
Definition get_times (f : pfile) : list Z := zrange 0 (fold_right Z.max 0 (map (fun e => zlen (snd e)) (p_map f))).
(** ParameterFile::getNumParameters, ParameterFile.cpp:237-257: [inl] is a result that has been returned *)
Definition num_parameters (f : pfile) : Z :=
  match fold_left (fun (st : Z + Z) (p : vec) =>
    match st with
    | inl r => inl r
    | inr size => if zlen p =? 0 then inl 0 else if negb (size =? -999) && negb (zlen p =? size) then inl (-999) else inr (zlen p)
    end) (concat (map snd (p_map f))) (inr (-999)) with inl r => r | inr r => r end.
(** ParameterFileSimple, Simple.cpp:9-14 *)
Definition simple_file (srt : bool -> list item -> list item) (p : vec) : res pfile := f <- set_global p 0 (new_pfile false) ;; recompute_tree srt f.

(** ** Text files
    std::istream::getline(line, 10000): the next line and what follows; None if the stream is not good afterwards: the end of the file was reached before
    the end of the line, or the line has 10000 characters or more.  The line ends at a null character (std::string(line)). *)
Definition cut (s : str) : str := fst (until_first_of ["000"%char] s).
Definition get_line (s : str) : option (str * str) :=
  let '(line, rest) := until_first_of [newline] s in
  match rest with [] => None | _ :: t => if 10000 <=? zlen line then None else Some (cut line, t) end.
(** Text.cpp:26-28: the lines that are read, without comments *)
Fixpoint file_lines (fuel : nat) (s : str) : list str :=
  match fuel with
  | O => []
  | S fuel => match get_line s with
              | None => []
              | Some (line, t) => match line with c :: _ => if Ascii.eqb c "#"%char then file_lines fuel t else line :: file_lines fuel t | [] => line :: file_lines fuel t end
              end
  end.
(** Text.cpp:33-40: words up to the end of the line; the stream is good as long as there are characters after the last word.  Reading no word is an error *)
Fixpoint header_words (fuel : nat) (s : str) : res (list str) :=
  match fuel with
  | O => UB
  | S fuel =>
      match first_not_of white s with
      | [] => Abort
      | t => let '(w, r) := until_first_of white t in match r with [] => Ok [w] | _ => ws <- header_words fuel r ;; Ok (w :: ws) end
      end
  end.
(** Text.cpp:42-50: the position of a column, -999 without *)
Fixpoint column (i pos : Z) (name : str) (ws : list str) : Z :=
  match ws with [] => pos | w :: t => column (i + 1) (if str_eqb w name then i else pos) name t end.
Record columns := { c_time : Z; c_lat : Z; c_lon : Z; c_elev : Z }.
Definition columns_of (ws : list str) : columns :=
  {| c_time := column 0 (-999) (txt "time") ws; c_lat := column 0 (-999) (txt "lat") ws; c_lon := column 0 (-999) (txt "lon") ws; c_elev := column 0 (-999) (txt "elev") ws |}.
Definition has_column (c : Z) : bool := negb (c =? -999).
(** Text.cpp:52-57 *)
Definition partial_place (c : columns) : bool :=
  let n := (if has_column (c_lat c) then 1 else 0) + (if has_column (c_lon c) then 1 else 0) + (if has_column (c_elev c) then 1 else 0) in (0 <? n) && (n <? 3).

Record row := { r_time : Z; r_lat : val; r_lon : val; r_elev : val; r_values : vec }.
(** Text.cpp:61-98.  [rint] and [rnum] are operator>> for int and float on a stream without leading white space: the number, and what follows it; None if there
    is no number.  The stream is at its end if nothing follows *)
Fixpoint read_row (rint : str -> option (Z * str)) (rnum : str -> option (val * str)) (fuel : nat) (c : columns) (i : Z) (s : str) (r : row) : res row :=
  match fuel with
  | O => UB
  | S fuel =>
      let s := first_not_of white s in
      let next rest r := match rest with [] => Ok r | _ => read_row rint rnum fuel c (i + 1) rest r end in
      if i =? c_time c then match rint s with None => Abort | Some (t, rest) => next rest {| r_time := t; r_lat := r_lat r; r_lon := r_lon r; r_elev := r_elev r; r_values := r_values r |} end
      else match rnum s with
           | None => Abort
           | Some (v, rest) =>
               next rest (if i =? c_lat c then {| r_time := r_time r; r_lat := v; r_lon := r_lon r; r_elev := r_elev r; r_values := r_values r |}
                          else if i =? c_lon c then {| r_time := r_time r; r_lat := r_lat r; r_lon := v; r_elev := r_elev r; r_values := r_values r |}
                          else if i =? c_elev c then {| r_time := r_time r; r_lat := r_lat r; r_lon := r_lon r; r_elev := v; r_values := r_values r |}
                          else {| r_time := r_time r; r_lat := r_lat r; r_lon := r_lon r; r_elev := r_elev r; r_values := r_values r ++ [v] |})
           end
  end.
Definition no_row : row := {| r_time := 0; r_lat := CMV; r_lon := CMV; r_elev := CMV; r_values := [] |}.
(** Text.cpp:100-103 *)
Definition row_place (r : row) : location :=
  if cvalid (r_lat r) && cvalid (r_lon r) && cvalid (r_elev r) then {| l_lat := r_lat r; l_lon := r_lon r; l_elev := r_elev r |} else anywhere.
(** std::set<int>, Text.cpp:20, 99, 136-137 *)
Fixpoint insert_time (t : Z) (l : list Z) : list Z :=
  match l with [] => [t] | x :: r => if t <? x then t :: l else if t =? x then l else x :: insert_time t r end.
(** ParameterFileText::ParameterFileText for an existing file, Text.cpp:10-145; with its times (Text.cpp:148-150).  [None]: the file cannot be opened *)
Definition read_rows (rint : str -> option (Z * str)) (rnum : str -> option (val * str)) (c : columns) (lines : list str) (f : pfile) : res (pfile * list Z * Z * Z) :=
  foldM (fun (st : pfile * list Z * Z * Z) line => let '(f, times, numParameters, counter) := st in
    r <- read_row rint rnum (S (length line)) c 0 line no_row ;;
    let n := zlen (r_values r) in
    if negb (numParameters =? -999) && negb (n =? numParameters) then Abort else
    f <- set_parameters (r_values r) (r_time r) (row_place r) f ;;
    Ok (f, insert_time (r_time r) times, n, counter + 1)) (f, [], -999, 0) lines.
Definition read_text (srt : bool -> list item -> list item) (rint : str -> option (Z * str)) (rnum : str -> option (val * str)) (cycle : bool) (content : option str) : res (pfile * list Z) :=
  match content with
  | None => Ok (new_pfile cycle, [])
  | Some s =>
      match file_lines (S (length s)) s with
      | [] => Abort
      | header :: lines =>
          ws <- header_words (S (length header)) header ;;
          let c := columns_of ws in
          if partial_place c then Abort else
          '(f, times, _, counter) <- read_rows rint rnum c lines (new_pfile cycle) ;;
          if counter =? 0 then Abort else
          if (1 <? counter) && negb (has_column (c_time c)) && negb (has_column (c_lat c)) then Abort else
          f <- recompute_tree srt f ;; Ok (f, times)
      end
  end.

(** ParameterFileText::write, Text.cpp:172-210.  [fint] and [fnum] are operator<< for int and float *)
Definition write_text (fint : Z -> str) (fnum : val -> str) (f : pfile) : res str :=
  dep <- location_dependent f ;;
  let n := num_parameters f in
  let names := flat_map (fun i => txt " param" ++ fint i) (zrange 0 n) in
  let line (l : location) (t : Z) (p : vec) :=
    if zlen p =? 0 then []
    else fint t ++ (if dep then " "%char :: fnum (l_lat l) ++ " "%char :: fnum (l_lon l) ++ " "%char :: fnum (l_elev l) else [])
         ++ flat_map (fun v => " "%char :: fnum v) p ++ [newline] in
  Ok ((if dep then txt "time lat lon elev" else txt "time") ++ [newline] ++ names
      ++ flat_map (fun e => concat (map (fun tp => line (fst e) (fst tp) (snd tp)) (combine (zrange 0 (zlen (snd e))) (snd e)))) (p_map f)).
