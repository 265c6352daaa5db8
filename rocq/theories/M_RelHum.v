(** Model of relative_humidity in src/api/humidity.cpp (rational arithmetic, exact). *)
From Verif Require Import Base.

(** mEwt, humidity.cpp:34-40, in units of 1e-6 *)
Definition ewt_micro : list Z :=
  [34; 89; 220; 517; 1155; 2472; 5080; 10050; 19210; 35530; 63560; 111100; 189100; 313900; 508800; 807000; 1254000; 1911800;
   2862700; 4214800; 6107800; 8719200; 12272000; 17044000; 23373000; 31671000; 42430000; 56236000; 73777000; 95855000;
   123400000; 157460000; 199260000; 250160000; 311690000; 385560000; 473670000; 578090000; 701130000; 845280000; 1013250000].
Definition ewt : vec := map (fun n => fq (n # 1000000)) ewt_micro.
(** x and the interpolated table value, humidity.cpp:48-56 and 58-66 *)
Definition ewt_at (t : val) : res val :=
  let x := vmul (vsub t (fq (17316 # 100))) (fq (2 # 10)) in
  let x := if vltb x (fz 0) then fz 0 else if vltb (fz 39) x then fz 39 else x in
  l <- to_int x ;;
  a <- znth ewt l ;; b <- znth ewt (l + 1) ;;
  Ok (vadd a (vmul (vsub b a) (vsub x (fz l)))).
(** relative_humidity, humidity.cpp:33-79 *)
Definition relative_humidity (temperature dewpoint : val) : res val :=
  if is_valid temperature && is_valid dewpoint then
    if vleb temperature dewpoint then Ok (fz 1) else
    et <- ewt_at temperature ;;
    etd <- ewt_at dewpoint ;;
    let rh := vdiv etd et in
    let rh := if vltb rh (fz 0) then fz 0 else rh in
    let rh := if vltb (fz 1) rh then fz 1 else rh in
    Ok rh
  else Ok MV.
(** relative_humidity(vec), humidity.cpp:80-90 *)
Definition relative_humidity_vec (temperature dewpoint : vec) : res vec :=
  if negb (zlen temperature =? zlen dewpoint) then Throw InvalidArgument else
  let N := zlen temperature in
  omp (for1 N (init1 N (fz 0)) (fun y => a <- znth temperature y ;; b <- znth dewpoint y ;; relative_humidity a b)).
