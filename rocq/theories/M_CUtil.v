(** Model of the client's statistics, interpolation, locations and fields: src/client/Util.cpp:328-412, 523-553, 640-679,
    src/client/Location.cpp and src/client/Field.{h,cpp}.  The release build keeps assertions (CMakeLists.txt:55): a failed assertion is [Abort]. *)
From Verif Require Import Base M_Stat M_COpt.
From Coq Require Import Qround.
Local Open Scope Z_scope.

(** Util::isValid, Util.h:43-45 *)
Definition cvalid (v : val) : bool := match v with Fin q => negb (qeqb q (qz (-999))) | _ => false end.
Definition assert_ (b : bool) : res unit := if b then Ok tt else Abort.

(** Util::StatType, Util.h:127-135 *)
Inductive cstat := CMean | CMin | CMedian | CMax | CQuantile | CStd | CSum.
Definition csum_step (s : val * Z) (v : val) : val * Z := if cvalid v then (vadd (fst s) v, snd s + 1) else s.
Definition cvar_step (s : val * val * val * Z) (v : val) : val * val * val * Z :=
  let '(total, total2, K, count) := s in
  if cvalid v then
    let K := if cvalid K then K else v in
    (vadd total (vsub v K), vadd total2 (vmul (vsub v K) (vsub v K)), K, count + 1)
  else s.
(** Util.cpp:375-409.  Converting NaN or infinity to int is undefined. *)
Definition cquantile (array : vec) (quantile : val) : res val :=
  let clean := filter cvalid array in
  let N := zlen clean in
  if 0 <? N then
    sorted <- std_sort clean ;;
    match vmul quantile (fz (N - 1)) with
    | Fin p =>
        let lowerIndex := Qfloor p in
        let upperIndex := Qceiling p in
        let lowerQuantile := vdiv (fz lowerIndex) (fz (N - 1)) in
        let upperQuantile := vdiv (fz upperIndex) (fz (N - 1)) in
        lowerValue <- znth sorted lowerIndex ;;
        upperValue <- znth sorted upperIndex ;;
        if lowerIndex =? upperIndex then Ok lowerValue
        else
          _ <- assert_ (vltb lowerQuantile upperQuantile) ;;
          _ <- assert_ (vleb lowerQuantile quantile) ;;
          let f := vdiv (vsub quantile lowerQuantile) (vsub upperQuantile lowerQuantile) in
          _ <- assert_ (vleb (fz 0) f) ;;
          _ <- assert_ (vleb f (fz 1)) ;;
          Ok (vadd lowerValue (vmul (vsub upperValue lowerValue) f))
    | _ => UB
    end
  else Ok CMV.
(** Util::calculateStat, Util.cpp:328-412 *)
Definition calculate_stat (E : ext) (array : vec) (st : cstat) (quantile : val) : res val :=
  match st with
  | CMean | CSum =>
      let '(total, count) := fold_left csum_step array (fz 0, 0) in
      if 0 <? count then Ok (match st with CMean => vdiv total (fz count) | _ => total end) else Ok CMV
  | CStd =>
      let '(total, total2, _, count) := fold_left cvar_step array (fz 0, fz 0, CMV, 0) in
      if 0 <? count then
        let mean := vdiv total (fz count) in
        let mean2 := vdiv total2 (fz count) in
        let var := vsub mean2 (vmul mean mean) in
        let var := if vltb var (fz 0) then fz 0 else var in
        Ok (vsqrt E var)
      else Ok CMV
  | CMin => cquantile array (fz 0)
  | CMedian => cquantile array (fq (1#2))
  | CMax => cquantile array (fz 1)
  | CQuantile => cquantile array quantile
  end.

(** Util::getLowerIndex and getUpperIndex, Util.cpp:640-679; the index starts as (int) Util::MV *)
Fixpoint clower (x : val) (i index : Z) (l : vec) : Z :=
  match l with
  | [] => index
  | c :: t =>
    if cvalid c then
      if vltb c x then clower x (i + 1) i t else if veqb c x then i else if vltb x c then index else clower x (i + 1) index t
    else clower x (i + 1) index t
  end.
Fixpoint cupper (x : val) (i index : Z) (l : vec) : Z :=
  match l with
  | [] => index
  | c :: t =>
    if cvalid c then
      if vltb x c then cupper x (i - 1) i t else if veqb c x then i else if vltb c x then index else cupper x (i - 1) index t
    else cupper x (i - 1) index t
  end.
Definition client_lower (x : val) (l : vec) : Z := clower x 0 (-999) l.
Definition client_upper (x : val) (l : vec) : Z := cupper x (zlen l - 1) (-999) (rev l).
(** Util::interpolate, Util.cpp:523-553; an empty iX is indexed out of range *)
Definition client_interpolate (x : val) (iX iY : vec) : res val :=
  xl <- znth iX (zlen iX - 1) ;;
  if vltb xl x then znth iY (zlen iX - 1) else
  x0 <- znth iX 0 ;;
  if vltb x x0 then znth iY 0 else
  let i0 := client_lower x iX in
  let i1 := client_upper x iX in
  _ <- assert_ (negb (i0 =? -999)) ;; _ <- assert_ (0 <=? i0) ;; _ <- assert_ (negb (i1 =? -999)) ;; _ <- assert_ (i1 <? zlen iX) ;;
  x0 <- znth iX i0 ;; x1 <- znth iX i1 ;; y0 <- znth iY i0 ;; y1 <- znth iY i1 ;;
  if veqb x0 x1 then Ok (vdiv (vadd y0 y1) (fz 2))
  else _ <- assert_ (vleb x0 x1) ;; Ok (vadd y0 (vdiv (vmul (vsub y1 y0) (vsub x x0)) (vsub x1 x0))).

(** Location, Location.cpp:3-25, 47-54: comparisons *)
Record location := { l_lat : val; l_lon : val; l_elev : val }.
Definition loc_ltb (a b : location) : bool :=
  if veqb (l_lat a) (l_lat b) then
    if veqb (l_lon a) (l_lon b) then vltb (l_elev a) (l_elev b) else vltb (l_lon a) (l_lon b)
  else vltb (l_lat a) (l_lat b).
Definition loc_eqb (a b : location) : bool := veqb (l_lat a) (l_lat b) && veqb (l_lon a) (l_lon b) && veqb (l_elev a) (l_elev b).
(** CmpIgnoreElevation: the first argument is called right *)
Definition loc_ltb2 (a b : location) : bool :=
  if veqb (l_lat b) (l_lat a) then vltb (l_lon a) (l_lon b) else vltb (l_lat a) (l_lat b).

(** Field, Field.h:10-68, Field.cpp:3-34.  Simplification: the product of the dimensions does not overflow. *)
Record field := { f_values : vec; f_ny : Z; f_nx : Z; f_ne : Z }.
Definition new_field (nY nX nE : Z) (fill : val) : res field :=
  if (0 <=? nY) && (0 <=? nX) && (0 <=? nE) then Ok {| f_values := init1 (nY * nX * nE) fill; f_ny := nY; f_nx := nX; f_ne := nE |} else Abort.
(** the arguments are unsigned: a negative index is a large one *)
Definition f_index (f : field) (y x e : Z) : res Z :=
  if (0 <=? y) && (y <? f_ny f) && (0 <=? x) && (x <? f_nx f) && (0 <=? e) && (e <? f_ne f)
  then Ok (e + x * f_ne f + y * f_nx f * f_ne f) else Abort.
Definition f_get (f : field) (y x e : Z) : res val := i <- f_index f y x e ;; znth (f_values f) i.
Definition f_set (f : field) (y x e : Z) (v : val) : res field :=
  i <- f_index f y x e ;; l <- zset (f_values f) i v ;; Ok {| f_values := l; f_ny := f_ny f; f_nx := f_nx f; f_ne := f_ne f |}.
(** operator()(y, x): the elements from index (y, x, 0) to index (y, x, nEns-1) *)
Definition f_ens (f : field) (y x : Z) : res vec :=
  i <- f_index f y x 0 ;; j <- f_index f y x (f_ne f - 1) ;; mapM (znth (f_values f)) (zrange i (j + 1)).
(** operator==: std::vector comparison *)
Fixpoint vec_eqb (a b : vec) : bool :=
  match a, b with [], [] => true | x :: s, y :: t => veqb x y && vec_eqb s t | _, _ => false end.
Definition f_eqb (f g : field) : bool := vec_eqb (f_values f) (f_values g).
