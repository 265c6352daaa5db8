(** The command line of the client: file names (Setup.cpp:10-88) and the state machine that reads variables, downscalers, calibrators and parameter files
    (Setup.cpp:90-734). *)
From Coq Require Import Ascii String.
From Verif Require Import Base M_COpt.
Local Open Scope Z_scope.

(** ** File names, Setup.cpp:8-40.  [index] is replaced by the list of the arguments that are left *)
Fixpoint file_names (argv : list str) (inp : str) (iopt : options) (outp : str) (oopt : options) : str * options * str * options * list str :=
  match argv with
  | [] => (inp, iopt, outp, oopt, [])
  | arg :: t =>
      match inp with
      | [] => file_names t arg iopt outp oopt
      | _ =>
          match outp with
          | [] => if has_char arg "="%char then file_names t inp (add_options arg iopt) outp oopt
                  else match arg with
                       | "-"%char :: _ => (inp, iopt, inp, iopt, argv)
                       | _ => file_names t inp iopt arg oopt
                       end
          | _ => if has_char arg "="%char then file_names t inp iopt outp (add_options arg oopt) else (inp, iopt, outp, oopt, argv)
          end
      end
  end.
(** a file that was opened: its name, its options, and whether it was opened for reading only.  The map mFileMap has one for each name, so that handles are equal
    if their names are *)
Record handle := { h_name : str; h_options : options; h_readonly : bool }.
Definition find_handle (m : list handle) (n : str) : option handle := List.find (fun h => str_eqb (h_name h) n) m.
(** Setup.cpp:41-88.  [glob] is Util::glob; [opens] is whether File::getScheme recognizes the file *)
Definition open_one (opens : str -> options -> bool -> bool) (iopt oopt : options) (st : list handle * list (handle * handle)) (names : str * str) : res (list handle * list (handle * handle)) :=
  let '(m, l) := st in
  let '(i, o) := names in
  '(m, oh) <- match find_handle m o with
              | Some h => Ok (m, h)
              | None => if opens o oopt false then let h := {| h_name := o; h_options := oopt; h_readonly := false |} in Ok (m ++ [h], h) else Abort
              end ;;
  '(m, ih) <- match find_handle m i with
              | Some h => if fst (fst (opt_eq iopt oopt)) then Ok (m, h) else Abort
              | None => if opens i iopt true then let h := {| h_name := i; h_options := iopt; h_readonly := true |} in Ok (m ++ [h], h) else Abort
              end ;;
  Ok (m, l ++ [(ih, oh)]).
Definition open_files (glob : str -> list str) (opens : str -> options -> bool -> bool) (inp : str) (iopt : options) (outp : str) (oopt : options) : res (list (handle * handle)) :=
  let is := glob inp in
  let os := glob outp in
  if negb (zlen is =? zlen os) then Abort
  else if zlen is =? 0 then Abort
  else '(_, l) <- foldM (open_one opens iopt oopt) ([], []) (combine is os) ;; Ok l.

(** ** The state machine *)
Inductive state := START | VAR | VAROPT | NEWVAR | VARI | VARIOPT | VARALIAS | VARALIASOPT | NEWVARALIAS | DOWN | DOWNOPT | CAL | NEWCAL | CALOPT | PARDOWN | PAROPTDOWN
  | PARCAL | PAROPTCAL | END | ERROR.
(** where the input variable comes from, Setup.cpp:300-327 *)
Inductive source := InFile | FromAlias (o : options) | Diagnosed | Nowhere.
(** VariableConfiguration, Setup.h:14-26, before the objects are created: names and options instead of calibrators, downscaler and parameter files *)
Record config := { c_name : str; c_vopts : options; c_input : str; c_iopts : options; c_source : source; c_down : str; c_dopts : options;
  c_cals : list (str * options * option (str * options)) }.
(** what the machine asks of other parts of the program: does the first input file have a variable, are the first input and output file the same,
    Calibrator::getScheme (output variable with its options, name and options of the calibrator) and Downscaler::getScheme (input variable, output variable,
    name and options of the downscaler), ParameterFile::getScheme followed by isReadable (type and options) *)
Record env := { e_has : str -> bool; e_same : bool; e_cal : str -> options -> str -> options -> res unit;
  e_down : str -> options -> str -> options -> str -> options -> res unit; e_par : str -> options -> res bool }.
(** the local variables of Setup.cpp:90-114.  The parallel vectors calibratorNames, cOptions and parameterFileCalibrators are one list.
    parameterFileDownscaler is never set *)
Record setup := { s_rest : list str; s_state : state; s_name : str; s_iname : str; s_v : options; s_vi : options; s_down : str; s_d : options; s_cal : str; s_c : options; s_cals : list (str * options * option (str * options)); s_par : str; s_p : options; s_alias : str; s_a : options; s_aliases : list (str * options); s_confs : list config }.
Definition set_rest (x : list str) (s : setup) : setup := {| s_rest := x; s_state := s_state s; s_name := s_name s; s_iname := s_iname s; s_v := s_v s; s_vi := s_vi s; s_down := s_down s; s_d := s_d s; s_cal := s_cal s; s_c := s_c s; s_cals := s_cals s; s_par := s_par s; s_p := s_p s; s_alias := s_alias s; s_a := s_a s; s_aliases := s_aliases s; s_confs := s_confs s |}.
Definition set_state (x : state) (s : setup) : setup := {| s_rest := s_rest s; s_state := x; s_name := s_name s; s_iname := s_iname s; s_v := s_v s; s_vi := s_vi s; s_down := s_down s; s_d := s_d s; s_cal := s_cal s; s_c := s_c s; s_cals := s_cals s; s_par := s_par s; s_p := s_p s; s_alias := s_alias s; s_a := s_a s; s_aliases := s_aliases s; s_confs := s_confs s |}.
Definition set_name (x : str) (s : setup) : setup := {| s_rest := s_rest s; s_state := s_state s; s_name := x; s_iname := s_iname s; s_v := s_v s; s_vi := s_vi s; s_down := s_down s; s_d := s_d s; s_cal := s_cal s; s_c := s_c s; s_cals := s_cals s; s_par := s_par s; s_p := s_p s; s_alias := s_alias s; s_a := s_a s; s_aliases := s_aliases s; s_confs := s_confs s |}.
Definition set_iname (x : str) (s : setup) : setup := {| s_rest := s_rest s; s_state := s_state s; s_name := s_name s; s_iname := x; s_v := s_v s; s_vi := s_vi s; s_down := s_down s; s_d := s_d s; s_cal := s_cal s; s_c := s_c s; s_cals := s_cals s; s_par := s_par s; s_p := s_p s; s_alias := s_alias s; s_a := s_a s; s_aliases := s_aliases s; s_confs := s_confs s |}.
Definition set_v (x : options) (s : setup) : setup := {| s_rest := s_rest s; s_state := s_state s; s_name := s_name s; s_iname := s_iname s; s_v := x; s_vi := s_vi s; s_down := s_down s; s_d := s_d s; s_cal := s_cal s; s_c := s_c s; s_cals := s_cals s; s_par := s_par s; s_p := s_p s; s_alias := s_alias s; s_a := s_a s; s_aliases := s_aliases s; s_confs := s_confs s |}.
Definition set_vi (x : options) (s : setup) : setup := {| s_rest := s_rest s; s_state := s_state s; s_name := s_name s; s_iname := s_iname s; s_v := s_v s; s_vi := x; s_down := s_down s; s_d := s_d s; s_cal := s_cal s; s_c := s_c s; s_cals := s_cals s; s_par := s_par s; s_p := s_p s; s_alias := s_alias s; s_a := s_a s; s_aliases := s_aliases s; s_confs := s_confs s |}.
Definition set_down (x : str) (s : setup) : setup := {| s_rest := s_rest s; s_state := s_state s; s_name := s_name s; s_iname := s_iname s; s_v := s_v s; s_vi := s_vi s; s_down := x; s_d := s_d s; s_cal := s_cal s; s_c := s_c s; s_cals := s_cals s; s_par := s_par s; s_p := s_p s; s_alias := s_alias s; s_a := s_a s; s_aliases := s_aliases s; s_confs := s_confs s |}.
Definition set_d (x : options) (s : setup) : setup := {| s_rest := s_rest s; s_state := s_state s; s_name := s_name s; s_iname := s_iname s; s_v := s_v s; s_vi := s_vi s; s_down := s_down s; s_d := x; s_cal := s_cal s; s_c := s_c s; s_cals := s_cals s; s_par := s_par s; s_p := s_p s; s_alias := s_alias s; s_a := s_a s; s_aliases := s_aliases s; s_confs := s_confs s |}.
Definition set_cal (x : str) (s : setup) : setup := {| s_rest := s_rest s; s_state := s_state s; s_name := s_name s; s_iname := s_iname s; s_v := s_v s; s_vi := s_vi s; s_down := s_down s; s_d := s_d s; s_cal := x; s_c := s_c s; s_cals := s_cals s; s_par := s_par s; s_p := s_p s; s_alias := s_alias s; s_a := s_a s; s_aliases := s_aliases s; s_confs := s_confs s |}.
Definition set_c (x : options) (s : setup) : setup := {| s_rest := s_rest s; s_state := s_state s; s_name := s_name s; s_iname := s_iname s; s_v := s_v s; s_vi := s_vi s; s_down := s_down s; s_d := s_d s; s_cal := s_cal s; s_c := x; s_cals := s_cals s; s_par := s_par s; s_p := s_p s; s_alias := s_alias s; s_a := s_a s; s_aliases := s_aliases s; s_confs := s_confs s |}.
Definition set_cals (x : list (str * options * option (str * options))) (s : setup) : setup := {| s_rest := s_rest s; s_state := s_state s; s_name := s_name s; s_iname := s_iname s; s_v := s_v s; s_vi := s_vi s; s_down := s_down s; s_d := s_d s; s_cal := s_cal s; s_c := s_c s; s_cals := x; s_par := s_par s; s_p := s_p s; s_alias := s_alias s; s_a := s_a s; s_aliases := s_aliases s; s_confs := s_confs s |}.
Definition set_par (x : str) (s : setup) : setup := {| s_rest := s_rest s; s_state := s_state s; s_name := s_name s; s_iname := s_iname s; s_v := s_v s; s_vi := s_vi s; s_down := s_down s; s_d := s_d s; s_cal := s_cal s; s_c := s_c s; s_cals := s_cals s; s_par := x; s_p := s_p s; s_alias := s_alias s; s_a := s_a s; s_aliases := s_aliases s; s_confs := s_confs s |}.
Definition set_p (x : options) (s : setup) : setup := {| s_rest := s_rest s; s_state := s_state s; s_name := s_name s; s_iname := s_iname s; s_v := s_v s; s_vi := s_vi s; s_down := s_down s; s_d := s_d s; s_cal := s_cal s; s_c := s_c s; s_cals := s_cals s; s_par := s_par s; s_p := x; s_alias := s_alias s; s_a := s_a s; s_aliases := s_aliases s; s_confs := s_confs s |}.
Definition set_alias (x : str) (s : setup) : setup := {| s_rest := s_rest s; s_state := s_state s; s_name := s_name s; s_iname := s_iname s; s_v := s_v s; s_vi := s_vi s; s_down := s_down s; s_d := s_d s; s_cal := s_cal s; s_c := s_c s; s_cals := s_cals s; s_par := s_par s; s_p := s_p s; s_alias := x; s_a := s_a s; s_aliases := s_aliases s; s_confs := s_confs s |}.
Definition set_a (x : options) (s : setup) : setup := {| s_rest := s_rest s; s_state := s_state s; s_name := s_name s; s_iname := s_iname s; s_v := s_v s; s_vi := s_vi s; s_down := s_down s; s_d := s_d s; s_cal := s_cal s; s_c := s_c s; s_cals := s_cals s; s_par := s_par s; s_p := s_p s; s_alias := s_alias s; s_a := x; s_aliases := s_aliases s; s_confs := s_confs s |}.
Definition set_aliases (x : list (str * options)) (s : setup) : setup := {| s_rest := s_rest s; s_state := s_state s; s_name := s_name s; s_iname := s_iname s; s_v := s_v s; s_vi := s_vi s; s_down := s_down s; s_d := s_d s; s_cal := s_cal s; s_c := s_c s; s_cals := s_cals s; s_par := s_par s; s_p := s_p s; s_alias := s_alias s; s_a := s_a s; s_aliases := x; s_confs := s_confs s |}.
Definition set_confs (x : list config) (s : setup) : setup := {| s_rest := s_rest s; s_state := s_state s; s_name := s_name s; s_iname := s_iname s; s_v := s_v s; s_vi := s_vi s; s_down := s_down s; s_d := s_d s; s_cal := s_cal s; s_c := s_c s; s_cals := s_cals s; s_par := s_par s; s_p := s_p s; s_alias := s_alias s; s_a := s_a s; s_aliases := s_aliases s; s_confs := x |}.
(** Setup::defaultDownscaler *)
Definition default_downscaler : str := txt "nearestNeighbour".
Definition start (rest : list str) : setup :=
  {| s_rest := rest; s_state := START; s_name := []; s_iname := []; s_v := no_options; s_vi := no_options; s_down := default_downscaler; s_d := no_options; s_cal := [];
     s_c := no_options; s_cals := []; s_par := []; s_p := no_options; s_alias := []; s_a := no_options; s_aliases := []; s_confs := [] |}.
(** index++ *)
Definition skip (s : setup) : setup := set_rest (tl (s_rest s)) s.
Definition goto (x : state) (s : setup) : setup := set_state x s.
Definition next (x : state) (s : setup) : setup := goto x (skip s).
(** the argument at the index, and whether it is a given one.  Both are used only where the code has compared the index with the number of arguments ([at_end]) *)
Definition arg (s : setup) : str := hd [] (s_rest s).
Definition at_end (s : setup) : bool := match s_rest s with [] => true | _ => false end.
Definition is (x : string) (s : setup) : bool := str_eqb (arg s) (txt x).
(** argv[index][0] == '-' *)
Definition dash (s : setup) : bool := match arg s with c :: _ => Ascii.eqb c "-"%char | [] => false end.
Definition empty (x : str) : bool := match x with [] => true | _ => false end.

Definition find_alias (n : str) (l : list (str * options)) : option options := match List.find (fun p => str_eqb (fst p) n) l with Some p => Some (snd p) | None => None end.
(** Setup.cpp:276-370 without the transitions.  An output variable has the name that was given: File::getVariable looks for it, and Variable::add does not change it *)
Definition new_variable (E : env) (s : setup) : res setup :=
  let exists_ := existsb (fun c => str_eqb (c_name c) (s_name s)) (s_confs s) in
  let input := if empty (s_iname s) then s_name s else s_iname s in
  let iopts := if empty (s_iname s) then s_v s else s_vi s in
  s <- (if exists_ then Ok s
        else
          let src := if e_has E input then InFile
                     else match find_alias input (s_aliases s) with
                          | Some o => FromAlias o
                          | None => if e_same E && existsb (fun c => str_eqb (c_name c) input) (s_confs s) then Diagnosed else Nowhere
                          end in
          if match src with Nowhere => negb (str_eqb (s_down s) (txt "bypass")) | _ => false end then Abort else
          _ <- mapM (fun k => e_cal E (s_name s) (s_v s) (fst (fst k)) (snd (fst k))) (s_cals s) ;;
          _ <- e_down E input iopts (s_name s) (s_v s) (s_down s) (s_d s) ;;
          Ok (set_confs (s_confs s ++ [{| c_name := s_name s; c_vopts := s_v s; c_input := input; c_iopts := iopts; c_source := src; c_down := s_down s; c_dopts := s_d s; c_cals := s_cals s |}]) s)) ;;
  Ok (set_v (clear (s_v s)) (set_vi (clear (s_vi s)) (set_name [] (set_iname [] (set_down default_downscaler (set_d (clear (s_d s)) (set_cals [] s))))))).
(** Setup.cpp:417-437 without the transitions.  That [name] is marked as read is left out: it only matters for a warning *)
Definition new_alias (s : setup) : res setup :=
  match find_alias (s_alias s) (s_aliases s) with
  | None => if has_value (txt "name") (s_a s) then Ok (set_aliases (s_aliases s ++ [(s_alias s, s_a s)]) (set_alias [] (set_a (clear (s_a s)) s))) else Abort
  | Some _ => Ok s
  end.
(** Setup.cpp:672-692: the parameter file of a calibrator; [None]: an error *)
Definition open_parameters (E : env) (s : setup) : res (option (option (str * options)) * options) :=
  if empty (s_par s) then Ok (Some None, s_p s)
  else
    let '(b, ty, p) := get_value read_word (txt "type") [] (s_p s) in
    if b then
      let p := add_option (txt "file") (s_par s) p in
      readable <- e_par E ty p ;;
      Ok (if readable then Some (Some (ty, p)) else None, p)
    else Ok (None, p).

(** one pass of the loop, Setup.cpp:115-726.  The error message is left out *)
Definition step (E : env) (s : setup) : res setup :=
  match s_state s with
  | START => Ok (if at_end s then goto ERROR s else if is "-v" s then next VAR s else if is "-vi" s then next VARI s else if is "-va" s then next VARALIAS s else goto ERROR s)
  | VAR =>
      Ok (if at_end s then goto ERROR s else if dash s then goto ERROR s
          else let s := skip (set_name (arg s) s) in
               if at_end s then goto NEWVAR s else if is "-v" s then goto NEWVAR s
               else if empty (s_iname s) && is "-vi" s then next VARI s
               else if is "-vi" s then goto NEWVAR s
               else if is "-d" s then next DOWN s else if is "-c" s then next CAL s else if is "-p" s then goto ERROR s else goto VAROPT s)
  | VAROPT =>
      Ok (if at_end s then goto NEWVAR s else if is "-d" s then next DOWN s else if is "-c" s then next CAL s else if is "-v" s then goto NEWVAR s
          else if is "-vi" s then next VARI s else if is "-p" s then goto ERROR s else skip (set_v (add_options (arg s) (s_v s)) s))
  | VARI =>
      Ok (if at_end s then goto ERROR s else if dash s then goto ERROR s
          else let s := skip (set_iname (arg s) s) in
               if at_end s then goto NEWVAR s else if is "-vi" s then goto NEWVAR s
               else if empty (s_name s) && is "-v" s then next VAR s
               else if is "-v" s then goto NEWVAR s
               else if is "-d" s then next DOWN s else if is "-c" s then next CAL s else if is "-p" s then goto ERROR s else goto VARIOPT s)
  | VARIOPT =>
      Ok (if at_end s then goto NEWVAR s else if is "-d" s then next DOWN s else if is "-c" s then next CAL s else if is "-vi" s then goto NEWVAR s
          else if is "-v" s then next VAR s else if is "-p" s then goto ERROR s else skip (set_vi (add_options (arg s) (s_vi s)) s))
  | NEWVAR =>
      if empty (s_name s) then Ok (goto ERROR s)
      else s <- new_variable E s ;;
           Ok (if at_end s then goto END s else if is "-v" s then next VAR s else if is "-vi" s then next VARI s else s)
  | VARALIAS =>
      Ok (if at_end s then goto ERROR s else if dash s then goto ERROR s else next VARALIASOPT (set_alias (arg s) s))
  | VARALIASOPT =>
      Ok (if at_end s then goto NEWVARALIAS s else if is "-v" s then goto NEWVARALIAS s else if is "-vi" s then goto NEWVARALIAS s
          else skip (set_a (add_options (arg s) (s_a s)) s))
  | NEWVARALIAS =>
      s <- new_alias s ;;
      Ok (if at_end s then goto END s else if is "-v" s then next VAR s else if is "-vi" s then next VARI s else s)
  | DOWN =>
      Ok (if at_end s then goto ERROR s
          else let s := skip (set_down (arg s) s) in
               if at_end s then goto NEWVAR s else if is "-c" s then next CAL s else if is "-v" s then goto NEWVAR s else if is "-vi" s then goto NEWVAR s
               else if is "-d" s then next DOWN s else if is "-p" s then goto PARDOWN s else goto DOWNOPT s)
  | DOWNOPT =>
      Ok (if at_end s then goto NEWVAR s else if is "-c" s then next CAL s else if is "-v" s then goto NEWVAR s else if is "-vi" s then goto NEWVAR s
          else if is "-p" s then goto PARDOWN s else skip (set_d (add_options (arg s) (s_d s)) s))
  | PARDOWN =>
      Ok (if at_end s then goto ERROR s
          else let s := skip (set_par (arg s) s) in
               if at_end s then goto NEWVAR s else if is "-c" s then next CAL s else if is "-v" s then goto NEWVAR s else if is "-vi" s then goto NEWVAR s
               else if is "-d" s then next DOWN s else if is "-p" s then next ERROR s else goto PAROPTDOWN s)
  | PAROPTDOWN =>
      Ok (if at_end s then goto NEWVAR s else if is "-c" s then next CAL s else if is "-v" s then goto NEWVAR s else if is "-vi" s then goto NEWVAR s
          else if is "-p" s then goto ERROR s else skip (set_p (add_options (arg s) (s_p s)) s))
  | CAL =>
      Ok (if at_end s then goto ERROR s
          else let s := skip (set_cal (arg s) s) in
               if at_end s then goto NEWCAL s else if is "-v" s then goto NEWCAL s else if is "-vi" s then goto NEWCAL s else if is "-c" s then goto NEWCAL s
               else if is "-d" s then goto NEWCAL s else if is "-p" s then goto PARCAL s else goto CALOPT s)
  | CALOPT =>
      Ok (if at_end s then goto NEWCAL s else if is "-c" s then goto NEWCAL s else if is "-v" s then goto NEWCAL s else if is "-vi" s then goto NEWCAL s
          else if is "-d" s then goto NEWCAL s else if is "-p" s then goto PARCAL s else skip (set_c (add_options (arg s) (s_c s)) s))
  | PARCAL =>
      Ok (if at_end s then goto ERROR s
          else let s := set_par (arg s) s in
               if is "-v" s then next NEWCAL s else if is "-vi" s then next NEWCAL s else if is "-c" s then next NEWCAL s else if is "-d" s then next NEWCAL s
               else if is "-p" s then next PARCAL s else goto PAROPTCAL s)
  | PAROPTCAL =>
      Ok (if at_end s then goto NEWCAL s else if is "-c" s then goto NEWCAL s else if is "-v" s then goto NEWCAL s else if is "-vi" s then goto NEWCAL s
          else if is "-d" s then goto NEWCAL s else if is "-p" s then goto PARCAL s else skip (set_p (add_options (arg s) (s_p s)) s))
  | NEWCAL =>
      '(r, p) <- open_parameters E s ;;
      let s := set_p p s in
      match r with
      | None => Ok (goto ERROR s)
      | Some f =>
          let s := set_cals (s_cals s ++ [(s_cal s, s_c s, f)]) s in
          let s := set_cal [] (set_c (clear (s_c s)) (set_par [] s)) in
          Ok (if at_end s then goto NEWVAR s else if is "-c" s then next CAL s else if is "-v" s then goto NEWVAR s else if is "-vi" s then goto NEWVAR s
              else if is "-d" s then next DOWN s else goto ERROR s)
      end
  | END => Ok s
  | ERROR => Abort
  end.
(** the loop; [None]: not finished after so many passes *)
Fixpoint run (E : env) (n : nat) (s : setup) : option (res setup) :=
  match s_state s with
  | END => Some (Ok s)
  | _ => match n with
         | O => None
         | S n => match step E s with
                  | Ok s => run E n s
                  | Throw e => Some (Throw e) | Abort => Some Abort | UB => Some UB
                  end
         end
  end.
