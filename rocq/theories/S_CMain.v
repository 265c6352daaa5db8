(** Specification of the main program of the client. *)
From Coq Require Import Ascii String.
From Verif Require Import Base M_COpt S_COpt M_CSetup S_CSetup M_CMain.
Local Open Scope Z_scope.

(** ** --version and --help *)
Definition asks_version (a : str) : Prop := a = txt "--version".
Definition asks_help (a : str) : Prop := a = txt "--help".
Definition asks (a : str) : Prop := asks_version a \/ asks_help a.

(** ** --debug: [args] are the arguments other than "--debug" and its level, [m] is the level that was given last *)
Inductive without_debug : list str -> list str -> str -> str -> Prop :=
| WD_end m : without_debug [] [] m m
| WD_level m l argv args r : without_debug argv args l r -> without_debug (txt "--debug" :: l :: argv) args m r
| WD_arg a argv args m r : a <> txt "--debug" -> without_debug argv args m r -> without_debug (a :: argv) (a :: args) m r.
(** the calls apart from the message *)
Definition no_message (e : event) : event := match e with EvWrite o vs _ => EvWrite o vs [] | _ => e end.
(** the same outcome apart from messages: those shown, and those written to files *)
Definition same_but_messages (r r' : res outcome) : Prop :=
  match r, r' with
  | Ok (Finished _ evs), Ok (Finished _ evs') => map no_message evs = map no_message evs'
  | _, _ => r = r'
  end.
(** messages from the most to the least important, and those a level shows *)
Definition shown (m : str) (n : Z) : Prop :=
  (m = txt "quiet" /\ n = 0) \/ (m = txt "error" /\ n = 1) \/ (m = txt "warn" /\ n = 3) \/ (m <> txt "quiet" /\ m <> txt "error" /\ m <> txt "warn" /\ n = 4).
Definition shows (lv : levels) (n : Z) : Prop :=
  [show_error lv; show_warning lv; show_status lv; show_info lv] = map (fun k => k <? n) [0; 1; 2; 3].

(** ** what is done *)
(** a calibrator asked for is called with its options and its parameter file *)
Definition cal_called (o v : str) (q : cal_request) (e : event) : Prop := exists n co p, e = EvCalibrate o v n co p /\ cal_done q (n, co, p).
(** the calls for a variable: it is initialised, downscaled and calibrated, in the order given; [before]: the variables asked for before *)
Definition var_called (E : env) (al : list (str * list str)) (i o : str) (before : list str) (v : var_request) (evs : list event) : Prop :=
  exists vo from io dn cals, are_options (q_vopts v) vo /\ are_options (input_args v) io /\ are_options (down_args v) dn /\ found E al before (input_name v) from /\
    evs = EvInit o (q_name v) vo :: EvDownscale i o from (input_name v) io (q_name v) (down_name v) dn :: cals /\ Forall2 (cal_called o (q_name v)) (q_cals v) cals.
(** a value that reads as zero: no digit other than zero before the first other character *)
Definition sign (c : ascii) : Prop := c = "-"%char \/ c = "+"%char.
Definition digit (c : ascii) : Prop := In c (txt "0123456789").
Definition reads_zero (w : str) : Prop :=
  exists sp sg zs rest, w = sp ++ sg ++ zs ++ rest /\ (forall c, In c sp -> In c white) /\ (sg = [] \/ exists c, sg = [c] /\ sign c) /\ (forall c, In c zs -> c = "0"%char) /\
    match rest with [] => sg ++ zs <> [] | c :: _ => ~ digit c /\ (sg ++ zs = [] -> ~ In c white /\ ~ sign c) end.
Definition kept_back (v : var_request) : Prop := exists w, given (q_vopts v) (txt "write") w /\ reads_zero w.
(** the calls for all variables, and the names of those to be written; a variable asked for again is passed over *)
Inductive vars_called (E : env) (al : list (str * list str)) (i o : str) : list str -> list var_request -> list event -> list str -> Prop :=
| VC_nil before : vars_called E al i o before [] [] []
| VC_again before v vs evs ns : In (q_name v) before -> vars_called E al i o before vs evs ns -> vars_called E al i o before (v :: vs) evs ns
| VC_new before v vs evs evs' ns ns' : ~ In (q_name v) before -> var_called E al i o before v evs -> (kept_back v -> ns' = ns) -> (~ kept_back v -> ns' = q_name v :: ns) ->
    vars_called E al i o (before ++ [q_name v]) vs evs' ns -> vars_called E al i o before (v :: vs) (evs ++ evs') ns'.
(** the calls for a pair of files: something is written only at the end, and only to the output *)
Definition pair_called (E : env) (al : list (str * list str)) (vs : list var_request) (message : str) (io : str * str) (evs : list event) : Prop :=
  exists evs' ns, vars_called E al (fst io) (snd io) [] vs evs' ns /\
    evs = EvPrepare (fst io) (snd io) :: evs' ++ [EvWrite (snd io) ns message; EvClear (fst io); EvClear (snd io)].
(** what can be asked for after the file names: at most one alias, and variables (as in C193) *)
Definition good_request (al : list (str * list str)) (vs : list var_request) : Prop :=
  (al = [] \/ exists x args, al = [(x, args)] /\ proper_name x /\ Forall plain args /\ exists n, given args (txt "name") n) /\ vs <> [] /\ Forall good_var vs /\ Forall closed_input (removelast vs).
(** a command line without --version and --help: file names with options, then a request, with any number of --debug between, the last with level [r] *)
Definition command (argv : list str) (r : str) (inp : str) (iargs : list str) (outp : str) (oargs : list str) (al : list (str * list str)) (vs : list var_request) : Prop :=
  (forall a, In a argv -> ~ asks a) /\ good_request al vs /\ exists args, without_debug argv args (txt "warn") r /\ file_part args inp iargs (Some (outp, oargs)) (request_args al vs).
