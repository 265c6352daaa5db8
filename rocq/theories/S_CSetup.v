(** Specification of the command line of the client. *)
From Coq Require Import Ascii String.
From Verif Require Import Base M_COpt S_COpt M_CSetup.
Local Open Scope Z_scope.

(** ** Options given by arguments *)
(** the words of some arguments *)
Definition words_of (args ws : list str) : Prop := exists wss, Forall2 (Words (txt " ")) args wss /\ ws = concat wss.
(** the arguments give key [k] the value [v] (the last time they mention it) *)
Definition given (args : list str) (k v : str) : Prop := exists ws, words_of args ws /\ LastAssigns ws k v.
(** the container has exactly the options given by the arguments *)
Definition are_options (args : list str) (o : options) : Prop := forall k v, holds o k v <-> given args k v.

(** ** File names *)
Definition assignment (a : str) : Prop := In "="%char a.
Definition dashed (a : str) : Prop := exists t, a = "-"%char :: t.
(** the first argument that is left does not go with the file name before it *)
Definition stops (rest : list str) : Prop := match rest with [] => True | a :: _ => ~ assignment a end.
(** "input [options] output [options] ..."; "input [options] -..."; "input [options]" *)
Inductive file_part : list str -> str -> list str -> option (str * list str) -> list str -> Prop :=
| FP_both inp iargs outp oargs rest : inp <> [] -> Forall assignment iargs -> outp <> [] -> ~ assignment outp -> ~ dashed outp -> Forall assignment oargs -> stops rest ->
    file_part (inp :: iargs ++ outp :: oargs ++ rest) inp iargs (Some (outp, oargs)) rest
| FP_same inp iargs a rest : inp <> [] -> Forall assignment iargs -> ~ assignment a -> dashed a -> file_part (inp :: iargs ++ a :: rest) inp iargs (Some (inp, iargs)) (a :: rest)
| FP_none inp iargs : inp <> [] -> Forall assignment iargs -> file_part (inp :: iargs) inp iargs None [].

(** ** Variables *)
(** the arguments with a meaning of their own *)
Definition flags : list str := map txt ["-d"; "-c"; "-v"; "-vi"; "-p"]%string.
Definition plain (a : str) : Prop := ~ In a flags.
(** a name may not be empty and may not start with a dash *)
Definition proper_name (n : str) : Prop := n <> [] /\ ~ dashed n.
(** argument [n] follows argument [f] *)
Definition follows (args : list str) (f n : str) : Prop := exists before after, args = before ++ f :: n :: after.

(** what a user can ask for *)
Record cal_request := { q_cal : str; q_copts : list str; q_par : option (str * list str) }.
Record var_request := { q_name : str; q_vopts : list str; q_in : option (str * list str); q_down : option (str * list str); q_cals : list cal_request }.
(** ... and how: -v name options [-vi name options] [-d downscaler options] ([-c calibrator options [-p file options]])* *)
Definition part (f : string) (x : option (str * list str)) : list str := match x with Some (n, o) => txt f :: n :: o | None => [] end.
Definition cal_args (c : cal_request) : list str := txt "-c" :: q_cal c :: q_copts c ++ part "-p" (q_par c).
Definition var_args (v : var_request) : list str :=
  txt "-v" :: q_name v :: q_vopts v ++ part "-vi" (q_in v) ++ part "-d" (q_down v) ++ concat (map cal_args (q_cals v)).
Definition good_cal (c : cal_request) : Prop :=
  Forall plain (q_copts c) /\
  match q_par c with Some (f, o) => plain f /\ f <> [] /\ Forall plain o /\ exists ty, given o (txt "type") ty | None => True end.
Definition good_var (v : var_request) : Prop :=
  proper_name (q_name v) /\ Forall plain (q_vopts v) /\ match q_in v with Some (n, o) => proper_name n /\ Forall plain o | None => True end /\
  match q_down v with Some (_, o) => Forall plain o | None => True end /\ Forall good_cal (q_cals v).
(** options of an input variable are followed by a downscaler or a calibrator *)
Definition closed_input (v : var_request) : Prop := match q_in v with Some (_, _ :: _) => q_down v <> None \/ q_cals v <> [] | _ => True end.

(** the whole command line after the file names: at most one alias, then the variables *)
Definition request_args (al : list (str * list str)) (vs : list var_request) : list str :=
  concat (map (fun x => txt "-va" :: fst x :: snd x) al) ++ concat (map var_args vs).
(** the calibrators that were set up are the ones asked for *)
Definition cal_done (c : cal_request) (k : str * options * option (str * options)) : Prop :=
  let '(n, o, p) := k in
  n = q_cal c /\ are_options (q_copts c) o /\
  match q_par c, p with
  | None, None => True
  | Some (f, args), Some (ty, po) =>
      holds po (txt "file") f /\ (forall k v, k <> txt "file" -> given args k v -> holds po k v) /\
      (forall v, given args (txt "type") v -> solid v -> ty = v)
  | _, _ => False
  end.
Definition input_name (v : var_request) : str := match q_in v with Some (n, _) => n | None => q_name v end.
Definition input_args (v : var_request) : list str := match q_in v with Some (_, o) => o | None => q_vopts v end.
Definition down_name (v : var_request) : str := match q_down v with Some (n, _) => n | None => txt "nearestNeighbour" end.
Definition down_args (v : var_request) : list str := match q_down v with Some (_, o) => o | None => [] end.
(** where the input is found: in the input file, else under an alias, else among the variables made before if the files are the same *)
Definition found (E : env) (al : list (str * list str)) (before : list str) (n : str) (x : source) : Prop :=
  match x with
  | InFile => e_has E n = true
  | FromAlias o => e_has E n = false /\ exists args, In (n, args) al /\ are_options args o
  | Diagnosed => e_has E n = false /\ (forall args, ~ In (n, args) al) /\ e_same E = true /\ In n before
  | Nowhere => e_has E n = false /\ (forall args, ~ In (n, args) al) /\ (e_same E = false \/ ~ In n before)
  end.
Definition var_done (E : env) (al : list (str * list str)) (before : list str) (v : var_request) (c : config) : Prop :=
  c_name c = q_name v /\ are_options (q_vopts v) (c_vopts c) /\ c_input c = input_name v /\ are_options (input_args v) (c_iopts c) /\
  found E al before (input_name v) (c_source c) /\ c_down c = down_name v /\ are_options (down_args v) (c_dopts c) /\ Forall2 cal_done (q_cals v) (c_cals c).
(** the variables one after the other; one that was there before is ignored; one whose input is nowhere is an error, unless its downscaler is "bypass" *)
Inductive done (E : env) (al : list (str * list str)) : list str -> list var_request -> option (list config) -> Prop :=
| D_nil before : done E al before [] (Some [])
| D_again before v vs r : In (q_name v) before -> done E al before vs r -> done E al before (v :: vs) r
| D_new before v vs c r : ~ In (q_name v) before -> var_done E al before v c -> (c_source c = Nowhere -> down_name v = txt "bypass") ->
    done E al (before ++ [q_name v]) vs r -> done E al before (v :: vs) (option_map (cons c) r)
| D_missing before v vs : ~ In (q_name v) before -> found E al before (input_name v) Nowhere -> down_name v <> txt "bypass" -> done E al before (v :: vs) None.
(** every downscaler, calibrator and parameter file can be set up *)
Definition accepts (E : env) : Prop :=
  (forall v vo n o, e_cal E v vo n o = Ok tt) /\ (forall i io v vo n o, e_down E i io v vo n o = Ok tt) /\ (forall t o, e_par E t o = Ok true).
(** setting up ends or aborts the program *)
Definition ends_or_aborts {A} (x : res A) : Prop := match x with Ok _ | Abort => True | _ => False end.
Definition regular (E : env) : Prop :=
  (forall v vo n o, ends_or_aborts (e_cal E v vo n o)) /\ (forall i io v vo n o, ends_or_aborts (e_down E i io v vo n o)) /\ (forall t o, ends_or_aborts (e_par E t o)).

(** command lines that break off or go wrong after the "-v" of a variable *)
Inductive broken : list str -> Prop :=
| B_nothing : broken []
| B_dash x t : dashed x -> broken (x :: t)
| B_parameters name opts t : proper_name name -> Forall plain opts -> broken (name :: opts ++ txt "-p" :: t)
| B_flag name opts f : proper_name name -> Forall plain opts -> In f [txt "-d"; txt "-c"; txt "-vi"] -> broken (name :: opts ++ [f])
| B_input name opts x t : proper_name name -> Forall plain opts -> dashed x -> broken (name :: opts ++ txt "-vi" :: x :: t)
| B_file name opts cal copts : proper_name name -> Forall plain opts -> Forall plain copts -> broken (name :: opts ++ txt "-c" :: cal :: copts ++ [txt "-p"]).
