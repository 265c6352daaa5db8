(** The main program of the client: src/client/Driver/Gridpp.cpp:62-205.  What is done to the files is recorded as a list of calls; the calls themselves are modelled
    elsewhere.  Simplifications: the calls return; output to the terminal, clocks and the sizes of caches (used for messages only) are left out; so is the
    alias that is made known to the input files at the end of Setup.cpp (736-742). *)
From Coq Require Import Ascii String.
From Verif Require Import Base M_COpt M_CSetup.
Local Open Scope Z_scope.

(** which messages are shown, Util.cpp:32-35 *)
Record levels := { show_error : bool; show_warning : bool; show_status : bool; show_info : bool }.
(** the calls on files (by name), variables, downscalers and calibrators.  EvPrepare: setTimes, setNumEns and setReferenceTime of the output with the values of the input *)
Inductive event :=
| EvPrepare (i o : str)
| EvInit (o v : str) (vopts : options)
| EvDownscale (i o : str) (from : source) (vi : str) (iopts : options) (v : str) (down : str) (dopts : options)
| EvCalibrate (o v : str) (cal : str) (copts : options) (par : option (str * options))
| EvWrite (o : str) (vs : list str) (message : str)
| EvClear (f : str).
Inductive outcome := Version | Usage (full : bool) | Finished (lv : levels) (evs : list event).
(** Gridpp.cpp:66-76 *)
Fixpoint first_request (argv : list str) : option outcome :=
  match argv with
  | [] => None
  | a :: t => if str_eqb a (txt "--version") then Some Version else if str_eqb a (txt "--help") then Some (Usage true) else first_request t
  end.
(** Gridpp.cpp:82-97 *)
Fixpoint take_debug (argv : list str) (args : list str) (mode : str) : res (list str * str) :=
  match argv with
  | [] => Ok (args, mode)
  | a :: t => if str_eqb a (txt "--debug") then match t with [] => Abort | m :: t => take_debug t args m end
              else take_debug t (args ++ [a]) mode
  end.
(** Gridpp.cpp:84, 99-118 *)
Definition levels_of (mode : str) : levels :=
  if str_eqb mode (txt "quiet") then {| show_error := false; show_warning := false; show_status := false; show_info := false |}
  else if str_eqb mode (txt "error") then {| show_error := true; show_warning := false; show_status := false; show_info := false |}
  else if str_eqb mode (txt "warn") then {| show_error := true; show_warning := true; show_status := true; show_info := false |}
  else {| show_error := true; show_warning := true; show_status := true; show_info := true |}.
(** Setup::Setup, Setup.cpp:6-742; [env_of] gives what depends on the files that were opened.  The number of passes is enough (C191) *)
Definition setup_of (glob : str -> list str) (opens : str -> options -> bool -> bool) (env_of : list (handle * handle) -> env) (args : list str) : res (list (handle * handle) * list config) :=
  let '(inp, io, outp, oo, rest) := file_names args [] no_options [] no_options in
  pairs <- open_files glob opens inp io outp oo ;;
  match run (env_of pairs) (8 * List.length rest + 2) (start rest) with
  | Some r => s <- r ;; Ok (pairs, s_confs s)
  | None => UB
  end.
(** operator>>(stream, bool): a number as of num_get for long, in libstdc++ with v = true for numbers other than 0 and 1, and v = false if there is no number;
    without anything but white space the variable is unchanged *)
Definition is_digit (c : ascii) : bool := (Z.of_nat (nat_of_ascii "0"%char) <=? Z.of_nat (nat_of_ascii c)) && (Z.of_nat (nat_of_ascii c) <=? Z.of_nat (nat_of_ascii "9"%char)).
Fixpoint digits (s : str) : str := match s with c :: t => if is_digit c then c :: digits t else [] | [] => [] end.
Definition read_bool (s : str) (x : bool) : bool :=
  match first_not_of white s with
  | [] => x
  | c :: t => let s := if Ascii.eqb c "-"%char || Ascii.eqb c "+"%char then t else c :: t in existsb (fun d => negb (Ascii.eqb d "0"%char)) (digits s)
  end.
(** Gridpp.cpp:142-146 *)
Definition to_write (c : config) : bool := let '(_, w, _) := get_value read_bool (txt "write") true (c_vopts c) in w.
(** Gridpp.cpp:137-176 *)
Definition variable_events (i o : str) (c : config) : list event :=
  EvInit o (c_name c) (c_vopts c) :: EvDownscale i o (c_source c) (c_input c) (c_iopts c) (c_name c) (c_down c) (c_dopts c) ::
  map (fun k => let '(n, co, p) := k in EvCalibrate o (c_name c) n co p) (c_cals c).
(** Gridpp.cpp:181-186 *)
Fixpoint joined (l : list str) : str := match l with [] => [] | [a] => a | a :: t => a ++ txt " " ++ joined t end.
(** Gridpp.cpp:124-202 *)
Definition pair_events (argv : list str) (confs : list config) (p : handle * handle) : list event :=
  let i := h_name (fst p) in
  let o := h_name (snd p) in
  let step st c := let '(ws, evs) := st in (if to_write c then ws ++ [c_name c] else ws, evs ++ variable_events i o c) in
  let '(ws, evs) := fold_left step confs ([], [EvPrepare i o]) in
  evs ++ [EvWrite o ws (joined argv); EvClear i; EvClear o].
(** main, Gridpp.cpp:62-205; [argv] without the name of the program *)
Definition main (glob : str -> list str) (opens : str -> options -> bool -> bool) (env_of : list (handle * handle) -> env) (argv : list str) : res outcome :=
  match first_request argv with
  | Some r => Ok r
  | None =>
      if zlen argv <? 2 then Ok (Usage false) else
      '(args, mode) <- take_debug argv [] (txt "warn") ;;
      '(pairs, confs) <- setup_of glob opens env_of args ;;
      Ok (Finished (levels_of mode) (concat (map (pair_events argv confs) pairs)))
  end.
