(** The main program of the client. *)
From Coq Require Import Ascii String Lia.
From Verif Require Import Base ListLib M_COpt S_COpt P_COpt M_CSetup S_CSetup P_CSetup P_CSetup2 P_CSetup3 P_CSetup4 M_CMain S_CMain.
Local Open Scope Z_scope.

(** *** --version and --help *)
Lemma first_none argv : first_request argv = None <-> forall a, In a argv -> ~ asks a.
Proof.
  induction argv as [|a t IH]; cbn [first_request]; [split; [intros _ a []|reflexivity]|].
  destruct (str_eqb_spec a (txt "--version")) as [->|N1]; [split; [discriminate|intros H; exfalso; apply (H _ (or_introl eq_refl)); left; reflexivity]|].
  destruct (str_eqb_spec a (txt "--help")) as [->|N2]; [split; [discriminate|intros H; exfalso; apply (H _ (or_introl eq_refl)); right; reflexivity]|].
  rewrite IH. split; intros H; [intros b [<-|Hb]; [intros [K|K]; contradiction|auto]|intros b Hb; apply H; right; exact Hb].
Qed.
Lemma first_app l a t : (forall b, In b l -> ~ asks b) -> first_request (l ++ a :: t) = first_request (a :: t).
Proof.
  induction l as [|b l IH]; intros H; [reflexivity|]. cbn [app first_request]. pose proof (H b (or_introl eq_refl)) as N.
  destruct (str_eqb_spec b (txt "--version")) as [->|_]; [exfalso; apply N; left; reflexivity|]. destruct (str_eqb_spec b (txt "--help")) as [->|_]; [exfalso; apply N; right; reflexivity|].
  apply IH. intros c Hc. apply H. right. exact Hc.
Qed.
Lemma c254 glob opens env_of argv :
  (forall l a t, argv = l ++ a :: t -> (forall b, In b l -> ~ asks b) -> (asks_version a -> main glob opens env_of argv = Ok Version) /\ (asks_help a -> main glob opens env_of argv = Ok (Usage true))) /\
  ((forall a, In a argv -> ~ asks a) -> main glob opens env_of argv <> Ok Version /\ main glob opens env_of argv <> Ok (Usage true) /\ (main glob opens env_of argv = Ok (Usage false) <-> zlen argv < 2)).
Proof.
  split.
  - intros l a t -> H. unfold main. rewrite first_app by exact H. split; intros ->; reflexivity.
  - intros H. apply first_none in H. unfold main. rewrite H. destruct (Z.ltb_spec (zlen argv) 2); [split; [discriminate|]; split; [discriminate|]; split; auto|].
    destruct (take_debug argv [] (txt "warn")) as [[args mode]| | |]; cbn [bind]; [|split; [discriminate|]; split; [discriminate|]; split; [discriminate|lia]..].
    destruct (setup_of glob opens env_of args) as [[pairs confs]| | |]; cbn [bind]; (split; [discriminate|]; split; [discriminate|]; split; [discriminate|lia]).
Qed.
(** *** --debug *)
Lemma take_run argv args m r : without_debug argv args m r -> forall pre, take_debug argv pre m = Ok (pre ++ args, r).
Proof.
  induction 1 as [m|m l argv args r H IH|a argv args m r N H IH]; intros pre; cbn [take_debug].
  - rewrite app_nil_r. reflexivity.
  - rewrite str_eqb_refl. apply IH.
  - destruct (str_eqb_spec a (txt "--debug")); [contradiction|]. rewrite IH. rewrite <- app_assoc. reflexivity.
Qed.
Lemma without_asks argv args m r : without_debug argv args m r -> (forall a, In a argv -> ~ asks a) -> forall a, In a args -> ~ asks a.
Proof. induction 1 as [m|m l argv args r H IH|a argv args m r N H IH]; intros K b Hb; [destruct Hb|apply IH; [intros c Hc; apply K; right; right; exact Hc|exact Hb]|]. destruct Hb as [<-|Hb]; [apply K; left; reflexivity|]. apply IH; [intros c Hc; apply K; right; exact Hc|exact Hb]. Qed.
Lemma without_none argv args m r : without_debug argv args m r -> ~ In (txt "--debug") args.
Proof. induction 1; [intros []|assumption|]. intros [K|K]; [congruence|contradiction]. Qed.
Lemma without_self args m : ~ In (txt "--debug") args -> without_debug args args m m.
Proof. induction args as [|a t IH]; intros N; [constructor|]. constructor; [intros ->; apply N; left; reflexivity|apply IH; intros K; apply N; right; exact K]. Qed.
Lemma without_len argv args m r : without_debug argv args m r -> zlen args <= zlen argv.
Proof. induction 1; rewrite ?zlen_cons; lia. Qed.
Lemma main_run glob opens env_of argv args r : (forall a, In a argv -> ~ asks a) -> 2 <= zlen argv -> without_debug argv args (txt "warn") r ->
  main glob opens env_of argv = '(pairs, confs) <- setup_of glob opens env_of args ;; Ok (Finished (levels_of r) (concat (map (pair_events argv confs) pairs))).
Proof. intros HA HL HW. apply first_none in HA. unfold main. rewrite HA. destruct (Z.ltb_spec (zlen argv) 2); [lia|]. rewrite (take_run _ _ _ _ HW). reflexivity. Qed.
Lemma no_message_pair a b confs p : map no_message (pair_events a confs p) = map no_message (pair_events b confs p).
Proof.
  unfold pair_events. destruct (fold_left _ confs _) as [ws evs]. rewrite !map_app. reflexivity.
Qed.
Lemma c255 glob opens env_of argv args r : (forall a, In a argv -> ~ asks a) -> without_debug argv args (txt "warn") r ->
  (2 <= zlen args -> same_but_messages (main glob opens env_of argv) (main glob opens env_of args)) /\
  (forall lv evs, main glob opens env_of argv = Ok (Finished lv evs) -> exists n, shown r n /\ shows lv n).
Proof.
  intros HA HW. split.
  - intros HL. pose proof (without_len _ _ _ _ HW) as L. rewrite (main_run _ _ _ argv args r HA) by (auto; lia). rewrite (main_run _ _ _ args args (txt "warn") (without_asks _ _ _ _ HW HA) HL (without_self _ _ (without_none _ _ _ _ HW))).
    destruct (setup_of glob opens env_of args) as [[pairs confs]| | |]; cbn; try reflexivity. rewrite !concat_map, !map_map. f_equal. apply map_ext. intros p. apply no_message_pair.
  - intros lv evs H. assert (HL : 2 <= zlen argv). { unfold main in H. apply first_none in HA. rewrite HA in H. destruct (Z.ltb_spec (zlen argv) 2); [discriminate|lia]. }
    rewrite (main_run _ _ _ argv args r HA HL HW) in H. destruct (setup_of glob opens env_of args) as [[pairs confs]| | |]; try discriminate H. cbn [bind] in H. injection H as <- _. unfold levels_of, shown.
    destruct (str_eqb_spec r (txt "quiet")); [exists 0; split; [auto|reflexivity]|]. destruct (str_eqb_spec r (txt "error")); [exists 1; split; [auto|reflexivity]|].
    destruct (str_eqb_spec r (txt "warn")); [exists 3; split; [auto|reflexivity]|]. exists 4. split; [right; right; right; repeat split; assumption|reflexivity].
Qed.
(** an argument --debug without level *)
Lemma c255_missing glob opens env_of argv args r : (forall a, In a argv -> ~ asks a) -> argv <> [] -> without_debug argv args (txt "warn") r -> main glob opens env_of (argv ++ [txt "--debug"]) = Abort.
Proof.
  intros HA NE HW. assert (HA' : forall a, In a (argv ++ [txt "--debug"]) -> ~ asks a). { intros a Ha. apply in_app_or in Ha as [Ha|[<-|[]]]; [auto|]. intros [K|K]; discriminate K. }
  apply first_none in HA'. unfold main. rewrite HA'. destruct (Z.ltb_spec (zlen (argv ++ [txt "--debug"])) 2) as [K|K]; [rewrite zlen_app in K; destruct argv; [congruence|]; rewrite zlen_cons in K; pose proof (zlen_nonneg argv); change (zlen [txt "--debug"]) with 1 in K; lia|].
  assert (G : forall pre, take_debug (argv ++ [txt "--debug"]) pre (txt "warn") = Abort); [|rewrite G; reflexivity]. clear - HW.
  induction HW as [m|m l argv args r H IH|a argv args m r N H IH]; intros pre; cbn [take_debug app]; [reflexivity|rewrite str_eqb_refl; apply IH|]. destruct (str_eqb_spec a (txt "--debug")); [contradiction|]. apply IH.
Qed.
Lemma c255_refuted : exists glob opens env_of argv args r, (forall a, In a argv -> ~ asks a) /\ without_debug argv args (txt "warn") r /\ ~ same_but_messages (main glob opens env_of argv) (main glob opens env_of args).
Proof.
  exists (fun n => [n]), (fun _ _ _ => true), (fun _ => everything), [txt "in"; txt "--debug"; txt "info"], [txt "in"], (txt "info").
  split; [intros a [<-|[<-|[<-|[]]]] [K|K]; discriminate K|]. split; [constructor; [discriminate|]; constructor; constructor|]. vm_compute. discriminate.
Qed.
