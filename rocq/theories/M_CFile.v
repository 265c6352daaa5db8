(** Model of the client's files: the cache of fields in src/client/File/File.cpp and the formats src/client/File/{Text,Point,NorcomQnh}.cpp.  A handle (FieldPtr) is the
    index of a field in the list of all fields that were created; a NULL pointer is None.  Two handles are equal if they are the same object.
    Simplifications: the numbers of times and members do not change after the file was opened; times and sizes do not overflow. *)
From Coq Require Import Ascii String.
From Verif Require Import Base M_COpt M_CUtil M_CCal M_CDown.
Local Open Scope Z_scope.

(** the fields that were created, the cache mFields, mVariables and mVariableAliases; sizes in [d] *)
Record file := { f_dims : dims; f_heap : list field; f_cache : list (str * list (option Z)); f_vars : list variable; f_alias : list (str * variable) }.
(** what a format provides: hasVariableCore and getFieldCore (which may create a field) *)
Record core := { k_has : variable -> bool; k_read : dims -> list field -> variable -> Z -> res (list field * Z) }.
(** std::map::find; variables are compared by their names, Variable.cpp:99-105 *)
Fixpoint find_name {A} (l : list (str * A)) (n : str) : option A :=
  match l with [] => None | (n', a) :: t => if str_eqb n' n then Some a else find_name t n end.
Fixpoint store {A} (l : list (str * A)) (n : str) (a : A) : list (str * A) :=
  match l with [] => [(n, a)] | (n', a') :: t => if str_eqb n' n then (n', a) :: t else (n', a') :: store t n a end.
Definition with_cache (F : file) (h : list field) (c : list (str * list (option Z))) : file :=
  {| f_dims := f_dims F; f_heap := h; f_cache := c; f_vars := f_vars F; f_alias := f_alias F |}.
(** hasDefinedVariable, File.cpp:373-380, and the push_back that follows, File.cpp:127-128, 156-157 *)
Definition define (v : variable) (F : file) : file :=
  if existsb (fun w => str_eqb (v_name w) (v_name v)) (f_vars F) then F
  else {| f_dims := f_dims F; f_heap := f_heap F; f_cache := f_cache F; f_vars := f_vars F ++ [v]; f_alias := f_alias F |}.
(** File::addField, File.cpp:151-160 *)
Definition add_field (F : file) (p : option Z) (v : variable) (t : Z) : res file :=
  let slots := match find_name (f_cache F) (v_name v) with Some s => s | None => init1 (d_t (f_dims F)) None end in
  let F := define v (with_cache F (f_heap F) (store (f_cache F) (v_name v) slots)) in
  slots <- zset slots t p ;;
  Ok (with_cache F (f_heap F) (store (f_cache F) (v_name v) slots)).
(** a new field *)
Definition create (F : file) (f : field) : file * Z := (with_cache F (f_heap F ++ [f]) (f_cache F), zlen (f_heap F)).
(** File.cpp:109-112, 116-119 and 188-190: fields of missing values for all times *)
Definition add_empty (F : file) (v : variable) : res file :=
  foldM (fun F t => f <- empty_field (f_dims F) ;; let '(F, p) := create F f in add_field F (Some p) v t) F (zrange 0 (d_t (f_dims F))).
(** File::getField(Variable, time, skip), File.cpp:79-130; times are compared as unsigned numbers with sizes *)
Definition get_field (K : core) (F : file) (v : variable) (t : Z) (skip : bool) : res (option Z * file) :=
  '(F, needs) <- match find_name (f_cache F) (v_name v) with
                 | Some slots => if (t <? 0) || (zlen slots <=? t) then Abort else p <- znth slots t ;; Ok (F, match p with None => true | _ => false end)
                 | None => if d_t (f_dims F) <=? t then Abort else Ok (with_cache F (f_heap F) (store (f_cache F) (v_name v) (init1 (d_t (f_dims F)) None)), true)
                 end ;;
  F <- (if needs : bool then
          if negb skip && k_has K v then
            '(h, p) <- k_read K (f_dims F) (f_heap F) v t ;; add_field (with_cache F h (f_cache F)) (Some p) v t
          else add_empty F v
        else Ok F) ;;
  match find_name (f_cache F) (v_name v) with
  | Some slots => if (t <? 0) || (zlen slots <=? t) then Abort else p <- znth slots t ;; Ok (p, define v F)
  | None => Abort
  end.
(** File::getField(name, time), File.cpp:60-78; the variable it stands for *)
Definition bare (n : str) : variable := {| v_name := n; v_min := CMV; v_max := CMV; v_units := []; v_std := []; v_level := -999 |}.
Definition resolve (F : file) (n : str) : variable :=
  match List.find (fun w => str_eqb (v_name w) n) (f_vars F) with
  | Some w => w
  | None => match find_name (f_alias F) n with Some w => w | None => bare n end
  end.
Definition get_named (K : core) (F : file) (n : str) (t : Z) : res (option Z * file) := get_field K F (resolve F n) t false.
(** File::hasVariable, File.cpp:196-204 *)
Definition has_variable (K : core) (F : file) (v : variable) : bool := k_has K v || match find_name (f_cache F) (v_name v) with Some _ => true | None => false end.
(** File::initNewVariable, File.cpp:187-193 *)
Definition init_new (K : core) (F : file) (v : variable) : res file := if has_variable K F v then Ok F else add_empty F v.
(** File::clear, File.cpp:206-208 *)
Definition clear_fields (F : file) : file := with_cache F (f_heap F) [].
(** DownscalerBypass::downscaleCore, Bypass.cpp:11-18 *)
Definition bypass (K : core) (F : file) (v : variable) : res file := if has_variable K F v then Ok F else init_new K F v.
(** the field of a handle, and assignment to it by the one who holds the handle *)
Definition deref (F : file) (p : option Z) : res field := match p with Some p => znth (f_heap F) p | None => UB end.
Definition assign (F : file) (p : Z) (f : field) : res file := h <- zset (f_heap F) p f ;; Ok (with_cache F h (f_cache F)).
(** a file just opened *)
Definition opened (d : dims) (h : list field) (vars : list variable) (al : list (str * variable)) : file := {| f_dims := d; f_heap := h; f_cache := []; f_vars := vars; f_alias := al |}.
(** a format that makes a new field each time it reads, as FileNetcdf (Netcdf.cpp:222-332), FilePoint (Point.cpp:93-131), FileNorcomQnh (NorcomQnh.cpp:81-84) and FileFake do *)
Definition fresh_core (has : variable -> bool) (content : variable -> Z -> res field) : core :=
  {| k_has := has; k_read := fun d h v t => f <- content v t ;; Ok (h ++ [f], zlen h) |}.

(** ** FileText, Text.cpp.  A line is its time and the numbers that follow; lines that start with # are left out; lines are shorter than 10000 characters, end with a
    newline, have no space at the end and consist of numbers *)
Record text_file := { tx_times : list Z; tx_locs : list location; tx_ens : Z; tx_rows : list (Z * location * vec) }.
(** std::set::insert *)
Fixpoint insert_by {A} (lt : A -> A -> bool) (x : A) (l : list A) : list A :=
  match l with [] => [x] | y :: t => if lt x y then x :: l else if lt y x then y :: insert_by lt x t else l end.
(** Text.cpp:20-69 *)
Definition text_row (st : text_file) (line : Z * vec) : res text_file :=
  match snd line with
  | lat :: lon :: elev :: vs =>
      let l := {| l_lat := lat; l_lon := lon; l_elev := elev |} in
      let n := if tx_ens st =? -999 then zlen vs else tx_ens st in
      if negb (zlen vs =? n) then Abort else
      Ok {| tx_times := insert_by Z.ltb (fst line) (tx_times st); tx_locs := insert_by loc_ltb l (tx_locs st); tx_ens := n; tx_rows := tx_rows st ++ [(fst line, l, vs)] |}
  | _ => Abort
  end.
(** the element of the map of maps [values], Text.cpp:18 and 67: the last row assigned *)
Definition same_loc (a b : location) : bool := negb (loc_ltb a b) && negb (loc_ltb b a).
Definition row_of (rows : list (Z * location * vec)) (t : Z) (l : location) : option vec :=
  match List.find (fun r => (fst (fst r) =? t) && same_loc (snd (fst r)) l) (rev rows) with Some r => Some (snd r) | None => None end.
(** Text.cpp:104-121 *)
Definition text_field (st : text_file) (d : dims) (t : Z) : res field :=
  f <- empty_field d ;;
  foldM (fun f i => l <- znth (tx_locs st) i ;;
    match row_of (tx_rows st) t l with
    | Some vs => foldM (fun f e => v <- znth vs e ;; f_set f i 0 e v) f (zrange 0 (tx_ens st))
    | None => Ok f
    end) f (zrange 0 (zlen (tx_locs st))).
(** FileText::FileText, Text.cpp:9-122: sizes, times, latitudes, longitudes, elevations and fields.  Without lines elevs[0] is read *)
Definition text_open (lines : list (Z * vec)) : res (dims * list Z * list vec * list vec * list vec * list field) :=
  st <- foldM text_row {| tx_times := []; tx_locs := []; tx_ens := -999; tx_rows := [] |} lines ;;
  _ <- znth (tx_locs st) 0 ;;
  let lats := map (fun l => [l_lat l]) (tx_locs st) in
  let lons := map (fun l => [l_lon l]) (tx_locs st) in
  let elevs := map (fun l => [l_elev l]) (tx_locs st) in
  if existsb (existsb lat_bad) lats then Abort else
  if existsb (existsb lon_bad) lons then Abort else
  lons <- mapM (mapM norm_lon) lons ;;
  let d := {| d_y := zlen (tx_locs st); d_x := 1; d_e := tx_ens st; d_t := zlen (tx_times st) |} in
  fields <- mapM (text_field st d) (tx_times st) ;;
  Ok (d, tx_times st, lats, lons, elevs, fields).
(** FileText::getFieldCore, Text.cpp:124-126, and hasVariableCore, Text.h:21: mLocalFields are the first fields created *)
Definition text_core : core := {| k_has := fun _ => true; k_read := fun d h v t => if (0 <=? t) && (t <? d_t d) then Ok (h, t) else UB |}.
(** FileText::writeCore, Text.cpp:128-149, and FilePoint::writeCore, Point.cpp:133-153: the lines written from the fields of the first variable; [rd] rounds to two decimals *)
Definition point_write (rd : val -> val) (d : dims) (times : list Z) (fields : list field) : res (list (Z * vec)) :=
  mapM (fun i => f <- znth fields i ;; t <- znth times i ;; vs <- mapM (fun e => v <- f_get f 0 0 e ;; Ok (rd v)) (zrange 0 (d_e d)) ;; Ok (t, vs)) (zrange 0 (d_t d)).

(** ** FilePoint, Point.cpp; lines as above *)
(** Point.cpp:47-90: number of members and times; the options ens and time, if given; [u] is what the variable numTimes has before *)
Definition point_open (lines : list (Z * vec)) (ens time : option Z) (u : Z) : res (Z * list Z) :=
  let n := match ens with Some n => n | None => match rev lines with l :: _ => zlen (snd l) | [] => -999 end end in
  let times := match time with Some k => zrange 0 k | None => map fst lines end in
  if match time with Some k => k | None => u end =? -999 then Abort else
  if n =? -999 then Abort else Ok (n, times).
(** FilePoint::getFieldCore, Point.cpp:95-131 *)
Definition point_read (lines : list (Z * vec)) (d : dims) (t : Z) : res field :=
  f <- empty_field d ;;
  foldM (fun f line =>
    if fst line =? t then
      if negb (zlen (snd line) =? d_e d) then Abort else foldM (fun f e => v <- znth (snd line) e ;; f_set f 0 0 e v) f (zrange 0 (d_e d))
    else Ok f) f lines.

(** ** FileNorcomQnh::writeCore, NorcomQnh.cpp:123-139: the number written for a station *)
Definition norcom_value (fields : list field) (first last j : Z) : res Z :=
  m <- foldM (fun m t => f <- znth fields t ;; v <- f_get f 0 j 0 ;; c <- to_int v ;; Ok (if (m =? -999) || (negb (c =? -999) && (c <? m)) then c else m)) (-999) (zrange first (last + 1)) ;;
  if m =? -999 then Abort else Ok (Z.quot m 100).
