(** Model of NetCDF files of the client: src/client/File/Netcdf.cpp, getFieldCore, writeCore and getLatLonVariable.  A dimension is its number; a missing number is -999.
    The library is modelled by what its documentation says: a variable is a function from indices (one for each dimension of the variable) to the stored values, in which
    elements that were never written have the fill value; values are passed in arrays in which the last index changes fastest; a request outside the sizes gives an error
    and does nothing, but writing extends dimensions that are unlimited; a value that does not fit the type stored gives an error.
    Simplifications: attributes other than those below, altitude, reference time and the variable with the times are left out of writing; there are no other errors of the library;
    the array of values, which the code reuses for all times, is new for each time, and the indices, which it reuses for all elements, are new for each. *)
From Coq Require Import Ascii String.
From Verif Require Import Base M_COpt M_CUtil M_CCal M_CDown M_CFile.
Local Open Scope Z_scope.

(** dimensions, contents, the attributes _FillValue, scale_factor and add_offset, and the conversion of a number to the stored type and back (None: does not fit) *)
Record nc_var := { n_dims : list Z; n_data : list Z -> val; n_fill : option val; n_scale : option val; n_offset : option val; n_store : val -> option val }.
(** sizes of the dimensions and whether they are unlimited; variables *)
Record netcdf := { x_dims : list (Z * bool); x_vars : list (str * nc_var) }.
(** mTimeDim, mEnsDim, mYDim, mXDim *)
Record roles := { r_t : Z; r_e : Z; r_y : Z; r_x : Z }.
(** getDimSize, Netcdf.cpp:857-861 *)
Definition dim_size (X : netcdf) (d : Z) : Z := match znth (x_dims X) d with Ok p => fst p | _ => -999 end.
(** indices of an array with these sizes, the last one changing fastest, and the place of an index *)
Fixpoint indices (count : list Z) : list (list Z) :=
  match count with [] => [[]] | c :: t => flat_map (fun i => map (cons i) (indices t)) (zrange 0 c) end.
Fixpoint product (l : list Z) : Z := match l with [] => 1 | c :: t => c * product t end.
Fixpoint row_major (count idx : list Z) : Z := match count, idx with _ :: t, i :: s => i * product t + row_major t s | _, _ => 0 end.
Fixpoint plus (a b : list Z) : list Z := match a, b with x :: s, y :: t => (x + y) :: plus s t | _, _ => [] end.
Fixpoint minus (a b : list Z) : list Z := match a, b with x :: s, y :: t => (x - y) :: minus s t | _, _ => [] end.
Fixpoint in_slab (start count idx : list Z) : bool :=
  match start, count, idx with
  | [], [], [] => true
  | s :: ss, c :: cs, i :: is => (s <=? i) && (i <? s + c) && in_slab ss cs is
  | _, _, _ => false
  end.
(** what the library checks; starts are unsigned, so that a negative one is large *)
Fixpoint allowed (X : netcdf) (writing : bool) (ds start count : list Z) : bool :=
  match ds, start, count with
  | [], [], [] => true
  | d :: ds, s :: ss, c :: cs =>
      match znth (x_dims X) d with
      | Ok (n, unlimited) => (0 <=? s) && ((s + c <=? n) || (writing && unlimited)) && allowed X writing ds ss cs
      | _ => false
      end
  | _, _, _ => false
  end.
(** nc_get_vara_float *)
Definition get_vara (X : netcdf) (v : nc_var) (start count : list Z) : option vec :=
  if allowed X false (n_dims v) start count then Some (map (fun i => n_data v (plus start i)) (indices count)) else None.
(** nc_put_vara_float: the sizes extended and the new contents *)
Fixpoint grow (ds : list (Z * bool)) (d n : Z) : list (Z * bool) :=
  match ds with [] => [] | (m, u) :: t => if d =? 0 then (Z.max m n, u) :: t else (m, u) :: grow t (d - 1) n end.
Fixpoint grow_all (dims : list (Z * bool)) (ds start count : list Z) : list (Z * bool) :=
  match ds, start, count with d :: ds, s :: ss, c :: cs => grow_all (grow dims d (s + c)) ds ss cs | _, _, _ => dims end.
Definition with_data (v : nc_var) (data : list Z -> val) : nc_var :=
  {| n_dims := n_dims v; n_data := data; n_fill := n_fill v; n_scale := n_scale v; n_offset := n_offset v; n_store := n_store v |}.
Definition put_vara (X : netcdf) (name : str) (v : nc_var) (start count : list Z) (values : list (option val)) : res netcdf :=
  if negb (allowed X true (n_dims v) start count) then Abort else
  vals <- mapM (fun k => b <- znth values k ;; match b with None => UB | Some x => match n_store v x with Some y => Ok y | None => Abort end end) (zrange 0 (product count)) ;;
  Ok {| x_dims := grow_all (x_dims X) (n_dims v) start count;
        x_vars := store (x_vars X) name (with_data v (fun i => if in_slab start count i then match znth vals (row_major count (minus i start)) with Ok y => y | _ => NaN end else n_data v i)) |}.

(** NC_FILL_FLOAT; getMissingValue, Netcdf.cpp:921-927; getScale and getOffset, Netcdf.cpp:941-954 *)
Definition fill_float : val := Fin (Q2Qc (inject_Z (15 * 2 ^ 119))).
Definition fill_of (v : nc_var) : val := match n_fill v with Some m => m | None => fill_float end.
Definition scale_of (v : nc_var) : val := match n_scale v with Some m => m | None => fz 1 end.
Definition offset_of (v : nc_var) : val := match n_offset v with Some m => m | None => fz 0 end.
(** getIndex, Netcdf.cpp:956-965 *)
Definition nc_index (count idx : list Z) : res Z :=
  r <- foldM (fun st k => let '(i, s) := st in j <- znth idx k ;; c <- znth count k ;; Ok (i + j * s, s * c)) (0, 1) (rev (zrange 0 (zlen count))) ;; Ok (fst r).
(** where the ensemble, y and x dimensions are among those of a variable, Netcdf.cpp:240-262 and 447-469: the last of each *)
Definition positions (R : roles) (ds : list Z) : Z * Z * Z :=
  fold_left (fun p kd => let '(k, d) := kd in let '(e, y, x) := p in
    if d =? r_t R then p else if d =? r_e R then (k, y, x) else if d =? r_y R then (e, k, x) else if d =? r_x R then (e, y, k) else p)
    (combine (zrange 0 (zlen ds)) ds) (-999, -999, -999).
Definition time_position (R : roles) (ds : list Z) : Z := fold_left (fun p kd => let '(k, d) := kd in if d =? r_t R then k else p) (combine (zrange 0 (zlen ds)) ds) (-999).
Definition set_if (p i : Z) (l : list Z) : res (list Z) := if ivalid p then zset l p i else Ok l.
Definition size_at (count : list Z) (p : Z) : res Z := if ivalid p then znth count p else Ok 1.
(** the loops over members, rows and columns, Netcdf.cpp:308-331 and 493-516 *)
Definition elements (nE nY nX : Z) : list (Z * Z * Z) := flat_map (fun e => flat_map (fun y => map (fun x => (e, y, x)) (zrange 0 nX)) (zrange 0 nY)) (zrange 0 nE).
Definition index_of (pos : Z * Z * Z) (count : list Z) (c : Z * Z * Z) : res Z :=
  let '(pe, py, px) := pos in let '(e, y, x) := c in
  i <- set_if pe e (init1 (zlen count) 0) ;; i <- set_if py y i ;; i <- set_if px x i ;; nc_index count i.
(** Netcdf.cpp:240-281: start and count in a dimension *)
Definition slice (X : netcdf) (R : roles) (level t d : Z) : res (Z * Z) :=
  if d =? r_t R then Ok (t, 1) else if (d =? r_e R) || (d =? r_y R) || (d =? r_x R) then Ok (0, dim_size X d)
  else if ivalid level && (1 <? dim_size X d) then if dim_size X d <=? level then Abort else Ok (level, 1) else Ok (0, 1).
(** Netcdf.cpp:317-326 *)
Definition unpack (v : nc_var) (value : val) : val := if cvalid (fill_of v) && veqb value (fill_of v) then CMV else vadd (vmul (scale_of v) value) (offset_of v).
(** getFieldCore, Netcdf.cpp:230-364; an error of nc_get_vara_float is not noticed, the values are then not set *)
Definition nc_read (X : netcdf) (R : roles) (d : dims) (name : str) (level t : Z) : res field :=
  match find_name (x_vars X) name with
  | None => Abort
  | Some v =>
      slices <- mapM (slice X R level t) (n_dims v) ;;
      let count := map snd slices in
      let values := get_vara X v (map fst slices) count in
      let pos := positions R (n_dims v) in
      f <- empty_field d ;;
      nE <- size_at count (fst (fst pos)) ;; nY <- size_at count (snd (fst pos)) ;; nX <- size_at count (snd pos) ;;
      foldM (fun f c => i <- index_of pos count c ;; value <- match values with Some l => znth l i | None => UB end ;;
        let '(e, y, x) := c in f_set f y x e (unpack v value)) f (elements nE nY nX)
  end.
(** hasVariableCore and getFieldCore as in M_CFile *)
Definition nc_core (X : netcdf) (R : roles) (d : dims) : core :=
  fresh_core (fun v => match find_name (x_vars X) (v_name v) with Some _ => true | None => false end) (fun v t => nc_read X R d (v_name v) (v_level v) t).

(** Netcdf.cpp:504-513 *)
Definition pack (v : nc_var) (value : val) : val := if cvalid (fill_of v) && negb (cvalid value) then fill_of v else vdiv (vsub value (offset_of v)) (scale_of v).
(** writeCore for one variable, Netcdf.cpp:436-523; [fields] are those of getField *)
Definition write_variable (X : netcdf) (R : roles) (d : dims) (name : str) (fields : list field) : res netcdf :=
  match find_name (x_vars X) name with
  | None => Abort
  | Some v0 =>
      let count := map (fun k => if k =? r_t R then 1 else if (k =? r_e R) || (k =? r_y R) || (k =? r_x R) then dim_size X k else 1) (n_dims v0) in
      let pos := positions R (n_dims v0) in
      foldM (fun X t =>
        match find_name (x_vars X) name with
        | None => Abort
        | Some v =>
            start <- set_if (time_position R (n_dims v)) t (init1 (zlen (n_dims v)) 0) ;;
            f <- znth fields t ;;
            nE <- size_at count (fst (fst pos)) ;; nY <- size_at count (snd (fst pos)) ;; nX <- size_at count (snd pos) ;;
            values <- foldM (fun b c => i <- index_of pos count c ;; let '(e, y, x) := c in value <- f_get f y x e ;; zset b i (Some (pack v value)))
              (init1 (d_e d * d_y d * d_x d) None) (elements nE nY nX) ;;
            put_vara X name v start count values
        end) X (zrange 0 (d_t d))
  end.
(** defineTimes and defineEns, Netcdf.cpp:1111-1135: the dimensions *)
Definition add_dim (X : netcdf) (n : Z) (unlimited : bool) : netcdf * Z := ({| x_dims := x_dims X ++ [(n, unlimited)]; x_vars := x_vars X |}, zlen (x_dims X)).
Definition define_dims (X : netcdf) (R : roles) (d : dims) : netcdf * roles :=
  let '(X, T) := match find_name (x_vars X) (txt "time") with
                 | Some _ => (X, r_t R) | None => if ivalid (r_t R) then (X, r_t R) else add_dim X 0 true end in
  let '(X, E) := if negb (ivalid (r_e R)) && (1 <? d_e d) then add_dim X (d_e d) false else (X, r_e R) in
  (X, {| r_t := T; r_e := E; r_y := r_y R; r_x := r_x R |}).
(** Netcdf.cpp:386-415 *)
Definition define_variable (X : netcdf) (R : roles) (name : str) : netcdf :=
  match find_name (x_vars X) name with
  | Some _ => X
  | None => {| x_dims := x_dims X; x_vars := store (x_vars X) name {| n_dims := filter ivalid [r_t R; r_e R; r_y R; r_x R]; n_data := fun _ => fill_float; n_fill := None; n_scale := None; n_offset := None; n_store := Some |} |}
  end.
(** writeCore, Netcdf.cpp:366-524 *)
Definition nc_write (X : netcdf) (R : roles) (d : dims) (vars : list (str * list field)) : res (netcdf * roles) :=
  let '(X, R) := define_dims X R d in
  let X := fold_left (fun X nf => define_variable X R (fst nf)) vars X in
  X <- foldM (fun X nf => write_variable X R d (fst nf) (snd nf)) X vars ;; Ok (X, R).

(** getLatLonVariable, Netcdf.cpp:1201-1296 *)
Definition latlon (X : netcdf) (R : roles) (v : nc_var) : res (list vec) :=
  let numY := if ivalid (r_y R) then dim_size X (r_y R) else 1 in
  let numX := if ivalid (r_x R) then dim_size X (r_x R) else 1 in
  match n_dims v with
  | [k] =>
      if negb ((k =? r_x R) || (k =? r_y R)) then Abort else
      match get_vara X v [0] [dim_size X k] with
      | None => Abort
      | Some values => tab2 numY numX (fun i j => znth values (if k =? r_x R then j else i))
      end
  | ds =>
      let '(y, x) := fold_left (fun p kd => let '(k, d) := kd in if d =? r_y R then (k, snd p) else if d =? r_x R then (fst p, k) else p) (combine (zrange 0 (zlen ds)) ds) (-999, -999) in
      if negb (ivalid x) then Abort else if negb (ivalid y) then Abort else
      match get_vara X v (init1 (zlen ds) 0) (map (fun k => if k =? r_y R then numY else if k =? r_x R then numX else 1) ds) with
      | None => Abort
      | Some values => tab2 numY numX (fun i j => value <- znth values (if y <? x then i * numX + j else j * numY + i) ;; Ok (if veqb value (fill_of v) then CMV else value))
      end
  end.
