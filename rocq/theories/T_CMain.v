(** The main program of the client: C254-C258. *)
From Coq Require Import Ascii String Lia.
From Verif Require Import Base ListLib M_COpt S_COpt M_CSetup S_CSetup P_CSetup4 M_CMain S_CMain P_CMain P_CMain2 P_CMain3 P_CMain4.
Local Open Scope Z_scope.

(** C254: --version and --help *)
Theorem C254_information : forall glob opens env_of argv, (forall l a t, argv = l ++ a :: t -> (forall b, In b l -> ~ asks b) -> (asks_version a -> main glob opens env_of argv = Ok Version) /\ (asks_help a -> main glob opens env_of argv = Ok (Usage true))) /\
  ((forall a, In a argv -> ~ asks a) -> main glob opens env_of argv <> Ok Version /\ main glob opens env_of argv <> Ok (Usage true) /\ (main glob opens env_of argv = Ok (Usage false) <-> zlen argv < 2)).
Proof. exact c254. Qed.
Print Assumptions C254_information.
Example C254_example : main names opens_all has_all (map txt ["a"; "-v"; "--help"; "--version"]%string) = Ok (Usage true) /\ main names opens_all has_all (map txt ["--debug"; "--version"]%string) = Ok Version /\ main names opens_all has_all [txt "a"] = Ok (Usage false).
Proof. split; [|split]; vm_compute; reflexivity. Qed.

(** C255: --debug.  Its level counts as an argument: a command line that is too short is not noticed *)
Theorem C255_debug_refuted : exists glob opens env_of argv args r, (forall a, In a argv -> ~ asks a) /\ without_debug argv args (txt "warn") r /\ ~ same_but_messages (main glob opens env_of argv) (main glob opens env_of args).
Proof. exact c255_refuted. Qed.
Print Assumptions C255_debug_refuted.
Theorem C255_debug_partial : forall glob opens env_of argv args r, (forall a, In a argv -> ~ asks a) -> without_debug argv args (txt "warn") r ->
  (2 <= zlen args -> same_but_messages (main glob opens env_of argv) (main glob opens env_of args)) /\
  (forall lv evs, main glob opens env_of argv = Ok (Finished lv evs) -> exists n, shown r n /\ shows lv n).
Proof. exact c255. Qed.
Print Assumptions C255_debug_partial.
Theorem C255_no_level : forall glob opens env_of argv args r, (forall a, In a argv -> ~ asks a) -> argv <> [] -> without_debug argv args (txt "warn") r -> main glob opens env_of (argv ++ [txt "--debug"]) = Abort.
Proof. exact c255_missing. Qed.
Print Assumptions C255_no_level.
Example C255_example : without_debug (map txt ["a"; "--debug"; "quiet"; "-v"; "T"; "--debug"; "error"]%string) (map txt ["a"; "-v"; "T"]%string) (txt "warn") (txt "error") /\
  show_error (level (main names opens_all has_all (line asked))) = true /\ show_warning (level (main names opens_all has_all (line asked))) = false.
Proof. split; [repeat constructor; discriminate|]. split; vm_compute; reflexivity. Qed.

(** C256: what is done *)
Theorem C256_calls : forall glob opens env_of argv r inp iargs outp oargs al vs lv evs, (forall pairs, accepts (env_of pairs)) -> command argv r inp iargs outp oargs al vs -> main glob opens env_of argv = Ok (Finished lv evs) ->
  exists pairs evss, map (fun p => h_name (fst p)) pairs = glob inp /\ map (fun p => h_name (snd p)) pairs = glob outp /\ evs = concat evss /\
    Forall2 (pair_called (env_of pairs) al vs (joined argv)) (combine (glob inp) (glob outp)) evss.
Proof. exact c256. Qed.
Print Assumptions C256_calls.
Theorem C256_finishes : forall glob opens env_of argv r inp iargs outp oargs al vs, (forall pairs, accepts (env_of pairs)) -> command argv r inp iargs outp oargs al vs ->
  (forall n o b, opens n o b = true) -> zlen (glob inp) = zlen (glob outp) -> glob inp <> [] -> NoDup (glob inp) -> (forall n, In n (glob inp) -> ~ In n (glob outp)) ->
  (forall pairs v, In v vs -> e_has (env_of pairs) (input_name v) = true) -> exists lv evs, main glob opens env_of argv = Ok (Finished lv evs).
Proof. exact c256_when. Qed.
Print Assumptions C256_finishes.
Example C256_example : command (line asked) (txt "error") (txt "a,b") [txt "x=1"] (txt "c,d") [] [] asked /\ (forall pairs, accepts (has_all pairs)) /\ names (txt "a,b") = [txt "a"; txt "b"] /\
  map (fun e => string_of_list_ascii (seen e)) (calls (main names opens_all has_all (line asked))) = flat_map (fun p : string * string => let '(i, o) := p in
  ["prepare " ++ i ++ " " ++ o; "init " ++ o ++ " T"; "downscale " ++ i ++ " " ++ o ++ " b T bilinear"; "calibrate " ++ o ++ " T smooth"; "calibrate " ++ o ++ " T regression"; "init " ++ o ++ " U"; "downscale " ++ i ++ " " ++ o ++ " U U nearestNeighbour";
   "write " ++ o ++ " T U: a,b x=1 --debug error c,d -v T units=K -vi b x=1 y -d bilinear -c smooth n=3 -c regression -p f type=text -v U -v T units=C"; "clear " ++ i; "clear " ++ o]%string) [("a", "c"); ("b", "d")]%string.
Proof. split; [exact asked_command|]. split; [intros pairs; exact everything_accepts|]. split; [vm_compute; reflexivity|exact asked_calls]. Qed.

(** C257: the variables written.  Not only write=0 keeps a variable back *)
Theorem C257_written_refuted : exists glob opens env_of argv r inp iargs outp oargs al vs lv evs o ns m v w, (forall pairs, accepts (env_of pairs)) /\ command argv r inp iargs outp oargs al vs /\ main glob opens env_of argv = Ok (Finished lv evs) /\ In (EvWrite o ns m) evs /\
  In v vs /\ given (q_vopts v) (txt "write") w /\ w <> txt "0" /\ w = txt "true" /\ ~ In (q_name v) ns.
Proof. exact c257_refuted. Qed.
Print Assumptions C257_written_refuted.
Theorem C257_written_partial : forall glob opens env_of argv r inp iargs outp oargs al vs lv evs o ns m, (forall pairs, accepts (env_of pairs)) -> command argv r inp iargs outp oargs al vs -> main glob opens env_of argv = Ok (Finished lv evs) -> In (EvWrite o ns m) evs ->
  In o (glob outp) /\ NoDup ns /\ (forall n, In n ns <-> exists pre v post, vs = pre ++ v :: post /\ q_name v = n /\ ~ In n (map q_name pre) /\ ~ kept_back v).
Proof. exact c257. Qed.
Print Assumptions C257_written_partial.
Example C257_example : command (line quoted) (txt "error") (txt "a,b") [txt "x=1"] (txt "c,d") [] [] quoted /\ In (EvWrite (txt "d") [txt "U"] (joined (line quoted))) (calls (main names opens_all has_all (line quoted))) /\ reads_zero (txt "00x") /\ ~ reads_zero (txt "01").
Proof.
  split; [exact quoted_command|]. split; [vm_compute; tauto|]. split; [apply read_bool_zero; vm_compute; reflexivity|]. intros K. apply read_bool_zero in K. vm_compute in K. discriminate K.
Qed.

(** C258: the command line in the output *)
Theorem C258_message : forall glob opens env_of argv lv evs o ns m, main glob opens env_of argv = Ok (Finished lv evs) -> In (EvWrite o ns m) evs -> (forall a, In a argv -> a <> [] /\ ~ In " "%char a) -> Words (txt " ") m argv.
Proof. exact c258. Qed.
Print Assumptions C258_message.
Example C258_example : (forall a, In a (line quoted) -> a <> [] /\ ~ In " "%char a) /\ joined (line quoted) = txt "a,b x=1 --debug error c,d -v T write=true -v U".
Proof. split; [|vm_compute; reflexivity]. intros a Ha. cbv in Ha. repeat (destruct Ha as [<-|Ha]; [split; [discriminate|intros K; repeat (destruct K as [K|K]; [discriminate K|]); destruct K]|]). destruct Ha. Qed.
