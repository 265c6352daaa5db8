(** Command lines of the client. *)
From Coq Require Import Ascii String Lia.
From Verif Require Import Base ListLib M_COpt S_COpt P_COpt M_CSetup S_CSetup P_CSetup P_CSetup2 P_CSetup3 P_CSetup4 M_CMain S_CMain P_CMain P_CMain2 P_CMain3.
Local Open Scope Z_scope.

Definition names : str -> list str := split (txt ",").
Definition opens_all : str -> options -> bool -> bool := fun _ _ _ => true.
Definition has_all : list (handle * handle) -> env := fun _ => everything.
(** a,b out=1 --debug error c,d followed by a request *)
Definition line (vs : list var_request) : list str := map txt ["a,b"; "x=1"; "--debug"; "error"; "c,d"]%string ++ request_args [] vs.
Lemma line_command vs : vs <> [] -> Forall good_var vs -> Forall closed_input (removelast vs) -> (forall a, In a (request_args [] vs) -> ~ asks a /\ a <> txt "--debug") -> (exists t, request_args [] vs = txt "-v" :: t) ->
  command (line vs) (txt "error") (txt "a,b") [txt "x=1"] (txt "c,d") [] [] vs.
Proof.
  intros H1 H2 H3 H4 (t & Et). split; [|split].
  - intros a Ha. apply in_app_or in Ha as [Ha|Ha]; [|apply H4; exact Ha]. repeat (destruct Ha as [<-|Ha]; [intros [K|K]; discriminate K|]). destruct Ha.
  - split; [left; reflexivity|auto].
  - exists (map txt ["a,b"; "x=1"; "c,d"]%string ++ request_args [] vs). split.
    + unfold line. cbn [map app]. apply WD_arg; [discriminate|]. apply WD_arg; [discriminate|]. apply WD_level. apply WD_arg; [discriminate|]. assert (forall l m, (forall a, In a l -> a <> txt "--debug") -> without_debug l l m m) as G.
      { induction l as [|a l IH]; intros m Hl; constructor; [apply Hl; left; reflexivity|apply IH; intros b Hb; apply Hl; right; exact Hb]. }
      apply G. intros a Ha. apply H4. exact Ha.
    + cbn [map app]. apply (FP_both (txt "a,b") [txt "x=1"] (txt "c,d") [] (request_args [] vs)); [discriminate|apply assign_all; reflexivity|discriminate|apply not_assign; reflexivity|intros [u e]; discriminate|constructor|]. rewrite Et. apply not_assign. reflexivity.
Qed.
(** -v T write=true -v U *)
Definition quoted : list var_request := [simple_var "T" ["write=true"%string]; simple_var "U" []].
Lemma line_ok (l : list str) : forallb (fun a => negb (str_eqb a (txt "--version")) && negb (str_eqb a (txt "--help")) && negb (str_eqb a (txt "--debug"))) l = true -> forall a, In a l -> ~ asks a /\ a <> txt "--debug".
Proof.
  intros F a Ha. rewrite forallb_forall in F. specialize (F a Ha). destruct (str_eqb_spec a (txt "--version")); [discriminate|]. destruct (str_eqb_spec a (txt "--help")); [discriminate|]. destruct (str_eqb_spec a (txt "--debug")); [discriminate|]. split; [intros [K|K]; contradiction|assumption].
Qed.
Lemma quoted_command : command (line quoted) (txt "error") (txt "a,b") [txt "x=1"] (txt "c,d") [] [] quoted.
Proof.
  apply line_command; [discriminate| | |apply line_ok; reflexivity|eexists; reflexivity].
  - repeat constructor; cbn; try (apply proper_check; reflexivity); try (apply plain_check; reflexivity); discriminate.
  - repeat constructor.
Qed.
Lemma asked_command : command (line asked) (txt "error") (txt "a,b") [txt "x=1"] (txt "c,d") [] [] asked.
Proof. apply line_command; [discriminate|apply asked_good|apply asked_good|apply line_ok; reflexivity|eexists; reflexivity]. Qed.
Definition calls (r : res outcome) : list event := match r with Ok (Finished _ evs) => evs | _ => [] end.
Definition level (r : res outcome) : levels := match r with Ok (Finished lv _) => lv | _ => levels_of [] end.
Lemma finished argv : (match main names opens_all has_all argv with Ok (Finished _ _) => true | _ => false end) = true -> main names opens_all has_all argv = Ok (Finished (level (main names opens_all has_all argv)) (calls (main names opens_all has_all argv))).
Proof. destruct (main names opens_all has_all argv) as [[| |lv evs]| | |]; try discriminate. reflexivity. Qed.
Lemma c257_refuted : exists glob opens env_of argv r inp iargs outp oargs al vs lv evs o ns m v w, (forall pairs, accepts (env_of pairs)) /\ command argv r inp iargs outp oargs al vs /\ main glob opens env_of argv = Ok (Finished lv evs) /\ In (EvWrite o ns m) evs /\
  In v vs /\ given (q_vopts v) (txt "write") w /\ w <> txt "0" /\ w = txt "true" /\ ~ In (q_name v) ns.
Proof.
  exists names, opens_all, has_all, (line quoted), (txt "error"), (txt "a,b"), [txt "x=1"], (txt "c,d"), [], [], quoted, (level (main names opens_all has_all (line quoted))), (calls (main names opens_all has_all (line quoted))), (txt "c"), [txt "U"], (joined (line quoted)), (simple_var "T" ["write=true"%string]), (txt "true").
  split; [intros pairs; apply everything_accepts|]. split; [exact quoted_command|]. split; [apply finished; vm_compute; reflexivity|]. split; [vm_compute; tauto|]. split; [left; reflexivity|]. split; [apply given_check; reflexivity|]. split; [discriminate|]. split; [reflexivity|]. intros [K|[]]. discriminate K.
Qed.
(** what is seen of the calls *)
Definition seen (e : event) : str :=
  match e with
  | EvPrepare i o => txt "prepare " ++ i ++ txt " " ++ o | EvInit o v _ => txt "init " ++ o ++ txt " " ++ v | EvDownscale i o _ vi _ v d _ => txt "downscale " ++ i ++ txt " " ++ o ++ txt " " ++ vi ++ txt " " ++ v ++ txt " " ++ d
  | EvCalibrate o v c _ _ => txt "calibrate " ++ o ++ txt " " ++ v ++ txt " " ++ c | EvWrite o vs m => txt "write " ++ o ++ txt " " ++ joined vs ++ txt ": " ++ m | EvClear f => txt "clear " ++ f
  end.
Lemma asked_calls : map (fun e => string_of_list_ascii (seen e)) (calls (main names opens_all has_all (line asked))) = flat_map (fun p : string * string => let '(i, o) := p in
  ["prepare " ++ i ++ " " ++ o; "init " ++ o ++ " T"; "downscale " ++ i ++ " " ++ o ++ " b T bilinear"; "calibrate " ++ o ++ " T smooth"; "calibrate " ++ o ++ " T regression"; "init " ++ o ++ " U"; "downscale " ++ i ++ " " ++ o ++ " U U nearestNeighbour";
   "write " ++ o ++ " T U: a,b x=1 --debug error c,d -v T units=K -vi b x=1 y -d bilinear -c smooth n=3 -c regression -p f type=text -v U -v T units=C"; "clear " ++ i; "clear " ++ o]%string) [("a", "c"); ("b", "d")]%string.
Proof. vm_compute. reflexivity. Qed.
