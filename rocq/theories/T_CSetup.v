(** The command line of the client: C189-C195. *)
From Coq Require Import Ascii String Lia.
From Verif Require Import Base M_COpt S_COpt M_CSetup S_CSetup P_CSetup P_CSetup2 P_CSetup3 P_CSetup4.
Local Open Scope Z_scope.

(** C189: file names and their options; every command line without empty arguments is read in one of these ways *)
Theorem C189_file_names : forall argv inp iargs o rest, file_part argv inp iargs o rest -> exists io oo, are_options iargs io /\
  file_names argv [] no_options [] no_options = (inp, io, match o with Some (outp, _) => outp | None => [] end, oo, rest) /\
  are_options (match o with Some (_, oargs) => oargs | None => [] end) oo.
Proof. exact c189. Qed.
Print Assumptions C189_file_names.
Theorem C189_all_command_lines : forall argv, argv <> [] -> Forall (fun a => a <> []) argv -> exists inp iargs o rest, file_part argv inp iargs o rest.
Proof. exact c189_all. Qed.
Print Assumptions C189_all_command_lines.
Example C189_example : file_part (map txt ["in"; "a=1"; "b=2"; "out"; "c=3"; "-v"; "T"]%string) (txt "in") (map txt ["a=1"; "b=2"]%string) (Some (txt "out", map txt ["c=3"]%string)) (map txt ["-v"; "T"]%string) /\
  file_part (map txt ["in"; "a=1"; "-v"; "T"]%string) (txt "in") (map txt ["a=1"]%string) (Some (txt "in", map txt ["a=1"]%string)) (map txt ["-v"; "T"]%string).
Proof.
  split.
  - apply (FP_both (txt "in") (map txt ["a=1"; "b=2"]%string) (txt "out") (map txt ["c=3"]%string) (map txt ["-v"; "T"]%string));
      [discriminate|apply assign_all; reflexivity|discriminate|apply not_assign; reflexivity|intros [t e]; discriminate|apply assign_all; reflexivity|apply not_assign; reflexivity].
  - apply (FP_same (txt "in") (map txt ["a=1"]%string) (txt "-v") (map txt ["T"]%string)); [discriminate|apply assign_all; reflexivity|apply not_assign; reflexivity|eexists; reflexivity].
Qed.

(** C190: the files are opened in pairs, each name once.  An output that is also an earlier input is opened read-only *)
Theorem C190_output_writable_refuted : exists glob opens inp iopt outp oopt l p, (forall n o b, opens n o b = true) /\ open_files glob opens inp iopt outp oopt = Ok l /\ In p l /\ h_readonly (snd p) = true.
Proof. exact c190_refuted. Qed.
Print Assumptions C190_output_writable_refuted.
Theorem C190_files_partial : forall glob opens inp iopt outp oopt l, open_files glob opens inp iopt outp oopt = Ok l ->
  l <> [] /\ map (fun p => h_name (fst p)) l = glob inp /\ map (fun p => h_name (snd p)) l = glob outp /\
  (forall p q, In p l -> In q l -> forall h h', (h = fst p \/ h = snd p) -> (h' = fst q \/ h' = snd q) -> h_name h = h_name h' -> h = h') /\
  (forall p h, In p l -> (h = fst p \/ h = snd p) -> opens (h_name h) (h_options h) (h_readonly h) = true /\ h_options h = (if h_readonly h then iopt else oopt)) /\
  (forall p, In p l -> h_readonly (fst p) = false -> In (h_name (fst p)) (glob outp)) /\
  (forall before p after, l = before ++ p :: after -> (forall q, In q before -> h_name (fst q) <> h_name (snd p)) -> h_readonly (snd p) = false).
Proof. exact c190. Qed.
Print Assumptions C190_files_partial.
Theorem C190_rejected_files : forall glob opens inp iopt outp oopt, (zlen (glob inp) <> zlen (glob outp) \/ glob outp = [] \/
   (exists n, (In n (glob inp) \/ In n (glob outp)) /\ forall o b, opens n o b = false) \/
   (exists n, In (n, n) (combine (glob inp) (glob outp)) /\ fst (fst (opt_eq iopt oopt)) = false)) ->
  open_files glob opens inp iopt outp oopt = Abort.
Proof. exact c190_rejects. Qed.
Print Assumptions C190_rejected_files.
Example C190_example : exists l, open_files (split (txt ",")) (fun _ _ _ => true) (txt "a,b") (options_of (txt "x=1")) (txt "a,c") (options_of (txt "x=1")) = Ok l /\
  map (fun p => (h_name (fst p), h_readonly (fst p), h_name (snd p), h_readonly (snd p))) l = [(txt "a", false, txt "a", false); (txt "b", true, txt "c", false)] /\
  open_files (split (txt ",")) (fun _ _ _ => true) (txt "a,b") (options_of (txt "x=1")) (txt "a,c") (options_of (txt "x=2")) = Abort.
Proof. exists (match open_files (split (txt ",")) (fun _ _ _ => true) (txt "a,b") (options_of (txt "x=1")) (txt "a,c") (options_of (txt "x=1")) with Ok l => l | _ => [] end). split; [vm_compute; reflexivity|]. split; vm_compute; reflexivity. Qed.

(** C191: the machine always ends, with configurations or with an error *)
Theorem C191_always_ends : forall E args, regular E -> exists r, ends_or_aborts r /\ forall n, (8 * List.length args + 2 <= n)%nat -> run E n (start args) = Some r.
Proof. exact c191. Qed.
Print Assumptions C191_always_ends.
Example C191_example : regular everything /\ run everything 50 (start (map txt ["-v"; "-c"]%string)) = Some Abort /\ run everything 3 (start (map txt ["-v"; "T"; "a=1"; "-c"; "x"]%string)) = None /\
  exists s, run everything 50 (start (map txt ["-v"; "T"; "a=1"; "-c"; "x"]%string)) = Some (Ok s) /\ map c_name (s_confs s) = [txt "T"].
Proof.
  split; [split; [|split]; intros; exact I|]. split; [vm_compute; reflexivity|]. split; [vm_compute; reflexivity|].
  exists (match run everything 50 (start (map txt ["-v"; "T"; "a=1"; "-c"; "x"]%string)) with Some (Ok s) => s | _ => start [] end). split; vm_compute; reflexivity.
Qed.

(** C192: nothing is invented: whatever is set up was mentioned on the command line *)
Theorem C192_nothing_invented : forall E args n s, run E n (start args) = Some (Ok s) ->
  s_rest s = [] /\ NoDup (map c_name (s_confs s)) /\
  forall c, In c (s_confs s) ->
    proper_name (c_name c) /\ follows args (txt "-v") (c_name c) /\
    proper_name (c_input c) /\ (c_input c = c_name c \/ follows args (txt "-vi") (c_input c)) /\
    (c_down c = txt "nearestNeighbour" \/ follows args (txt "-d") (c_down c)) /\
    (forall n o p, In (n, o, p) (c_cals c) -> follows args (txt "-c") n) /\
    (forall o, o = c_vopts c \/ o = c_iopts c \/ o = c_dopts c \/ (exists n p, In (n, o, p) (c_cals c)) ->
       forall k v, holds o k v -> exists a ws w, In a args /\ Words (txt " ") a ws /\ In w ws /\ Assigns w k v).
Proof. exact c192. Qed.
Print Assumptions C192_nothing_invented.
Example C192_example : exists s, run everything 99 (start (request_args [] asked)) = Some (Ok s) /\ map c_name (s_confs s) = [txt "T"; txt "U"] /\ map c_down (s_confs s) = [txt "bilinear"; txt "nearestNeighbour"].
Proof. exists (match run everything 99 (start (request_args [] asked)) with Some (Ok s) => s | _ => start [] end). split; [vm_compute; reflexivity|]. split; vm_compute; reflexivity. Qed.

(** C193: what is asked for is set up.  Not so for a variable whose input has options and that is followed by another one: it is lost *)
Theorem C193_variable_lost_refuted : exists E vs n s v, accepts E /\ Forall good_var vs /\ run E n (start (request_args [] vs)) = Some (Ok s) /\ In v vs /\ ~ In (q_name v) (map c_name (s_confs s)).
Proof. exact c193_refuted. Qed.
Print Assumptions C193_variable_lost_refuted.
Theorem C193_requests_partial : forall E al vs, accepts E -> (al = [] \/ exists x args, al = [(x, args)] /\ proper_name x /\ Forall plain args /\ exists n, given args (txt "name") n) ->
  vs <> [] -> Forall good_var vs -> Forall closed_input (removelast vs) ->
  exists n r, run E n (start (request_args al vs)) = Some r /\
    match r with Ok s => done E al [] vs (Some (s_confs s)) | Abort => done E al [] vs None | _ => False end.
Proof. exact c193. Qed.
Print Assumptions C193_requests_partial.
Example C193_example : accepts everything /\ Forall good_var asked /\ Forall closed_input (removelast asked) /\ asked <> [] /\
  exists s, run everything 99 (start (request_args [] asked)) = Some (Ok s) /\ map (fun c => (c_name c, c_input c, o_pairs (c_vopts c), o_pairs (c_iopts c))) (s_confs s) =
    [(txt "T", txt "b", [(txt "units", txt "K")], [(txt "x", txt "1"); (txt "y", txt "1")]); (txt "U", txt "U", [], [])].
Proof.
  split; [exact everything_accepts|]. split; [apply asked_good|]. split; [apply asked_good|]. split; [discriminate|].
  exists (match run everything 99 (start (request_args [] asked)) with Some (Ok s) => s | _ => start [] end). split; vm_compute; reflexivity.
Qed.

(** C194: broken command lines are errors, whatever comes before *)
Theorem C194_broken : forall E vs t, accepts E -> Forall good_var vs -> Forall closed_input vs -> broken t ->
  exists n, run E n (start (concat (map var_args vs) ++ txt "-v" :: t)) = Some Abort.
Proof. exact c194. Qed.
Print Assumptions C194_broken.
Theorem C194_no_variable : forall E args, match args with [] => True | x :: _ => x <> txt "-v" /\ x <> txt "-vi" /\ x <> txt "-va" end -> exists n, run E n (start args) = Some Abort.
Proof. exact c194_start. Qed.
Print Assumptions C194_no_variable.
Theorem C194_input_only : forall E n opts, proper_name n -> Forall plain opts -> exists k, run E k (start (txt "-vi" :: n :: opts)) = Some Abort.
Proof. exact c194_input_only. Qed.
Print Assumptions C194_input_only.
Example C194_example : accepts everything /\ Forall good_var asked /\ Forall closed_input asked /\ broken (map txt ["V"; "a=1"; "-p"; "f"]%string) /\ broken (map txt ["V"; "-c"; "x"; "b=1"; "-p"]%string).
Proof.
  split; [exact everything_accepts|]. split; [apply asked_good|]. split; [apply asked_good|]. split.
  - apply (B_parameters (txt "V") (map txt ["a=1"]%string) [txt "f"]); [apply proper_check; reflexivity|apply plain_all; reflexivity].
  - apply (B_file (txt "V") [] (txt "x") (map txt ["b=1"]%string)); [apply proper_check; reflexivity|constructor|apply plain_all; reflexivity].
Qed.

(** C195: parameter files.  Options of an earlier parameter file are kept, so that a missing type is not noticed; a parameter file of a downscaler is dropped, or given to the next calibrator under the name "-p" *)
Theorem C195_options_leak_refuted : exists E v f n s c k1 o po, accepts E /\ nth_error (q_cals v) 1 = Some {| q_cal := txt "y"; q_copts := []; q_par := Some (f, []) |} /\
  run E n (start (var_args v)) = Some (Ok s) /\ s_confs s = [c] /\ c_cals c = [k1; (txt "y", o, Some (txt "text", po))] /\ holds po (txt "type") (txt "text").
Proof. exact c195_refuted. Qed.
Print Assumptions C195_options_leak_refuted.
Theorem C195_downscaler_file_refuted : exists E args, accepts E /\ args = map txt ["-v"; "a"; "-d"; "x"; "-p"; "f"; "type=text"]%string /\
  (exists n s n' s', run E n (start args) = Some (Ok s) /\ run E n' (start (firstn 4 args)) = Some (Ok s') /\ s_confs s = s_confs s') /\
  (exists n s c o po, run E n (start (args ++ [txt "-c"; txt "y"])) = Some (Ok s) /\ s_confs s = [c] /\ c_cals c = [(txt "y", o, Some (txt "text", po))] /\ holds po (txt "file") (txt "-p")).
Proof. exact c195_downscaler_refuted. Qed.
Print Assumptions C195_downscaler_file_refuted.
Theorem C195_missing_type_partial : forall E name opts cal copts f popts tail, proper_name name -> Forall plain opts -> Forall plain copts -> plain f -> f <> [] -> Forall plain popts ->
  (tail = [] \/ exists t, tail = txt "-v" :: t \/ tail = txt "-c" :: t) -> (forall ty, ~ given (f :: popts) (txt "type") ty) ->
  exists n, run E n (start (txt "-v" :: name :: opts ++ txt "-c" :: cal :: copts ++ txt "-p" :: f :: popts ++ tail)) = Some Abort.
Proof. exact c195_partial. Qed.
Print Assumptions C195_missing_type_partial.
Example C195_example : (forall ty, ~ given [txt "f"; txt "x=1"] (txt "type") ty) /\ Forall plain (map txt ["f"; "x=1"; "n=3"]%string) /\
  run everything 99 (start (map txt ["-v"; "T"; "-c"; "smooth"; "n=3"; "-p"; "f"; "x=1"; "-v"; "U"]%string)) = Some Abort.
Proof. split; [exact no_type|]. split; [apply plain_all; reflexivity|vm_compute; reflexivity]. Qed.
