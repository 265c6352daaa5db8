(** The calls of the main program of the client. *)
From Coq Require Import Ascii String Lia.
From Verif Require Import Base ListLib M_COpt S_COpt P_COpt M_CSetup S_CSetup P_CSetup P_CSetup2 P_CSetup3 P_CSetup4 M_CMain S_CMain P_CMain.
Local Open Scope Z_scope.

(** *** the option write *)
Lemma is_digit_iff c : is_digit c = true <-> digit c.
Proof.
  split.
  - destruct c as [[] [] [] [] [] [] [] []]; intros H; try (vm_compute in H; discriminate H); unfold digit; cbn; tauto.
  - intros H. repeat (destruct H as [<-|H]; [reflexivity|]). destruct H.
Qed.
Lemma digits_spec s : exists rest, s = digits s ++ rest /\ match rest with [] => True | c :: _ => ~ digit c end.
Proof.
  induction s as [|c t (rest & E & N)]; [exists []; split; [reflexivity|exact Logic.I]|]. cbn [digits]. destruct (is_digit c) eqn:D.
  - exists rest. split; [cbn [app]; f_equal; exact E|exact N].
  - exists (c :: t). split; [reflexivity|]. intros K. apply is_digit_iff in K. congruence.
Qed.
Lemma digits_app zs rest : (forall c, In c zs -> digit c) -> match rest with [] => True | c :: _ => ~ digit c end -> digits (zs ++ rest) = zs.
Proof.
  induction zs as [|z zs IH]; intros H N; cbn [app digits].
  - destruct rest as [|c t]; [reflexivity|]. cbn [digits]. destruct (is_digit c) eqn:D; [|reflexivity]. apply is_digit_iff in D. contradiction.
  - assert (D : is_digit z = true) by (apply is_digit_iff, H; left; reflexivity). rewrite D. f_equal. apply IH; [|exact N]. intros c Hc. apply H. right. exact Hc.
Qed.
Lemma first_not_of_skip d sp x : (forall c, In c sp -> In c d) -> first_not_of d (sp ++ x) = first_not_of d x.
Proof. induction sp as [|c sp IH]; intros H; [reflexivity|]. cbn [app first_not_of]. assert (K : has_char d c = true) by (apply has_char_In, H; left; reflexivity). rewrite K. apply IH. intros c' Hc. apply H. right. exact Hc. Qed.
Lemma zero_digit : digit "0"%char.
Proof. left. reflexivity. Qed.
Lemma first_not_of_stop d c t : ~ In c d -> first_not_of d (c :: t) = c :: t.
Proof. intros N. cbn [first_not_of]. apply has_char_nIn in N. rewrite N. reflexivity. Qed.
Lemma not_white c : has_char white c = false -> ~ In c white.
Proof. apply has_char_nIn. Qed.
Lemma zeros_exist zs : (forall c, In c zs -> c = "0"%char) <-> existsb (fun d => negb (Ascii.eqb d "0"%char)) zs = false.
Proof.
  induction zs as [|z zs IH]; cbn [existsb]; [split; [reflexivity|intros _ c []]|]. rewrite orb_false_iff, negb_false_iff, Ascii.eqb_eq, <- IH. split.
  - intros H. split; [apply H; left; reflexivity|intros c Hc; apply H; right; exact Hc].
  - intros [-> H] c [<-|Hc]; auto.
Qed.
Lemma read_bool_zero w : read_bool w true = false <-> reads_zero w.
Proof.
  unfold read_bool. split.
  - destruct (first_not_of_spec white w) as (sp & E & HS & HN). remember (first_not_of white w) as r eqn:Er. destruct r as [|c t]; [discriminate|]. intros H.
    assert (NW : ~ In c white). { clear - Er. symmetry in Er. revert Er. induction w as [|x w IH]; [discriminate|]. cbn [first_not_of]. destruct (has_char white x) eqn:X; [exact IH|]. intros K. injection K as <- _. apply not_white. exact X. }
    destruct (Ascii.eqb_spec c "-"%char) as [->|N1]; cbn [orb] in H; [|destruct (Ascii.eqb_spec c "+"%char) as [->|N2]]; cbn [orb] in H; rewrite <- zeros_exist in H.
    + destruct (digits_spec t) as (rest & Et & Hr). exists sp, ["-"%char], (digits t), rest. rewrite <- Et. split; [exact E|]. split; [exact HS|]. split; [right; eexists; split; [reflexivity|left; reflexivity]|]. split; [exact H|]. destruct rest; [discriminate|]. split; [exact Hr|discriminate].
    + destruct (digits_spec t) as (rest & Et & Hr). exists sp, ["+"%char], (digits t), rest. rewrite <- Et. split; [exact E|]. split; [exact HS|]. split; [right; eexists; split; [reflexivity|right; reflexivity]|]. split; [exact H|]. destruct rest; [discriminate|]. split; [exact Hr|discriminate].
    + destruct (digits_spec (c :: t)) as (rest & Et & Hr). exists sp, [], (digits (c :: t)), rest. cbn [app]. rewrite <- Et. split; [exact E|]. split; [exact HS|]. split; [left; reflexivity|]. split; [exact H|].
      destruct rest as [|x y]; [intros K; rewrite K in Et; discriminate Et|]. split; [exact Hr|]. intros K. rewrite K in Et. injection Et as -> _. split; [exact NW|]. intros [K'|K']; contradiction.
  - intros (sp & sg & zs & rest & -> & HS & Hg & HZ & HR). rewrite first_not_of_skip by exact HS. assert (HD : forall c, In c zs -> digit c) by (intros c Hc; rewrite (HZ c Hc); exact zero_digit).
    assert (HR' : match rest with [] => True | c :: _ => ~ digit c end) by (destruct rest; [exact Logic.I|apply HR]).
    destruct Hg as [->|(c & -> & Hc)]; cbn [app] in *.
    + destruct zs as [|z zs]; cbn [app] in *.
      * destruct rest as [|c t]; [contradiction|]. destruct HR as [N K]. destruct (K eq_refl) as [K1 K2]. rewrite first_not_of_stop by exact K1.
        destruct (Ascii.eqb_spec c "-"%char) as [->|_]; [exfalso; apply K2; left; reflexivity|]. destruct (Ascii.eqb_spec c "+"%char) as [->|_]; [exfalso; apply K2; right; reflexivity|]. cbn [orb digits]. destruct (is_digit c) eqn:D; [apply is_digit_iff in D; contradiction|reflexivity].
      * assert (z = "0"%char) as -> by (apply HZ; left; reflexivity). rewrite first_not_of_stop by (intros K; repeat (destruct K as [K|K]; [discriminate K|]); destruct K).
        change (Ascii.eqb "0"%char "-"%char || Ascii.eqb "0"%char "+"%char) with false. cbv iota. pose proof (digits_app ("0"%char :: zs) rest HD HR') as X. cbn [app] in X. rewrite X. apply (proj1 (zeros_exist _)); exact HZ.
    + rewrite first_not_of_stop by (destruct Hc as [->| ->]; intros K; repeat (destruct K as [K|K]; [discriminate K|]); destruct K).
      replace (Ascii.eqb c "-"%char || Ascii.eqb c "+"%char) with true by (destruct Hc as [->| ->]; reflexivity). rewrite digits_app by assumption. apply (proj1 (zeros_exist _)); exact HZ.
Qed.
Lemma to_write_iff v c : are_options (q_vopts v) (c_vopts c) -> to_write c = false <-> kept_back v.
Proof.
  intros H. unfold to_write, get_value. destruct (assoc (o_pairs (c_vopts c)) (txt "write")) as [w|] eqn:A.
  - assert (K : holds (c_vopts c) (txt "write") w). { clear - A. unfold holds. induction (o_pairs (c_vopts c)) as [|[k v] l IH]; [discriminate|]. cbn [assoc] in A. destruct (str_eqb_spec k (txt "write")) as [->|_]; [injection A as ->; left; reflexivity|right; auto]. }
    apply H in K. rewrite read_bool_zero. split; [intros Z0; exists w; auto|]. intros (w' & G & Z0). rewrite (given_fun _ _ _ _ K G). exact Z0.
  - split; [discriminate|]. intros (w & G & _). apply H in G. unfold holds in G. exfalso. clear - A G. induction (o_pairs (c_vopts c)) as [|[k v] l IH]; [destruct G|]. cbn [assoc] in A. destruct (str_eqb_spec k (txt "write")) as [->|N]; [discriminate|]. destruct G as [G|G]; [congruence|auto].
Qed.
(** *** the calls *)
Lemma pair_events_eq argv confs p : pair_events argv confs p = EvPrepare (h_name (fst p)) (h_name (snd p)) :: concat (map (variable_events (h_name (fst p)) (h_name (snd p))) confs) ++
  [EvWrite (h_name (snd p)) (map c_name (filter to_write confs)) (joined argv); EvClear (h_name (fst p)); EvClear (h_name (snd p))].
Proof.
  unfold pair_events. set (i := h_name (fst p)). set (o := h_name (snd p)).
  assert (G : forall cs ws evs, fold_left (fun (st : list str * list event) c => let '(ws, evs) := st in (if to_write c then ws ++ [c_name c] else ws, evs ++ variable_events i o c)) cs (ws, evs) = (ws ++ map c_name (filter to_write cs), evs ++ concat (map (variable_events i o) cs))).
  { induction cs as [|c cs IH]; intros ws evs; cbn [fold_left filter map concat]; [rewrite !app_nil_r; reflexivity|]. rewrite IH. destruct (to_write c); cbn [map]; rewrite <- ?app_assoc; reflexivity. }
  rewrite G. reflexivity.
Qed.
Lemma cals_called o v qs ks : Forall2 cal_done qs ks -> Forall2 (cal_called o v) qs (map (fun k : str * options * option (str * options) => let '(n, co, p) := k in EvCalibrate o v n co p) ks).
Proof. induction 1 as [|q [[n co] p] qs ks H _ IH]; cbn [map]; constructor; [exists n, co, p; split; [reflexivity|exact H]|exact IH]. Qed.
Lemma vars_run E al i o before vs r : done E al before vs r -> forall confs, r = Some confs -> vars_called E al i o before vs (concat (map (variable_events i o) confs)) (map c_name (filter to_write confs)).
Proof.
  induction 1 as [before|before v vs r HI HD IH|before v vs c r HN HV HS HD IH|before v vs HN HF HB]; intros confs Er.
  - injection Er as <-. constructor.
  - constructor; [exact HI|]. apply IH. exact Er.
  - destruct r as [cs|]; [|discriminate]. injection Er as <-. destruct HV as (E1 & E2 & E3 & E4 & E5 & E6 & E7 & E8). cbn [map concat].
    apply VC_new with (ns := map c_name (filter to_write cs)); [exact HN| | | |apply IH; reflexivity].
    + exists (c_vopts c), (c_source c), (c_iopts c), (c_dopts c), (map (fun k : str * options * option (str * options) => let '(n, co, p) := k in EvCalibrate o (c_name c) n co p) (c_cals c)).
      split; [exact E2|]. split; [exact E4|]. split; [exact E7|]. split; [exact E5|]. unfold variable_events. rewrite E1, E3, E6. split; [reflexivity|]. apply cals_called. exact E8.
    + intros K. apply (to_write_iff v c E2) in K. cbn [filter]. rewrite K. reflexivity.
    + intros K. cbn [filter]. destruct (to_write c) eqn:W; [cbn [map]; rewrite E1; reflexivity|]. exfalso. apply K. apply (to_write_iff v c E2). exact W.
  - discriminate.
Qed.
Lemma accepts_regular E : accepts E -> regular E.
Proof. intros (A1 & A2 & A3). split; [|split]; intros; rewrite ?A1, ?A2, ?A3; exact Logic.I. Qed.
Lemma run_more E n : forall s r k, run E n s = Some r -> run E (n + k) s = Some r.
Proof.
  induction n as [|n IH]; intros s r k H.
  - cbn [run] in H. destruct (state_eq_END s) as [K|K]; [|destruct (s_state s); congruence]. destruct k; cbn [Nat.add run]; rewrite K in *; exact H.
  - destruct (state_eq_END s) as [K|K]; [cbn [Nat.add run] in *; rewrite K in *; exact H|]. cbn [Nat.add]. rewrite run_S in * by exact K. destruct (step E s); auto.
Qed.
Lemma setup_requests E al vs : accepts E -> good_request al vs -> exists r, run E (8 * List.length (request_args al vs) + 2) (start (request_args al vs)) = Some r /\
  match r with Ok s => done E al [] vs (Some (s_confs s)) | Abort => done E al [] vs None | _ => False end.
Proof.
  intros HA (H1 & H2 & H3 & H4). destruct (c193 E al vs HA H1 H2 H3 H4) as (n & r & R & D). exists r. split; [|exact D].
  destruct (c191 E (request_args al vs) (accepts_regular E HA)) as (r' & _ & R'). rewrite (R' _ (le_n _)). f_equal.
  pose proof (run_more _ _ _ _ (8 * List.length (request_args al vs) + 2) R) as X. rewrite (R' (n + (8 * List.length (request_args al vs) + 2))%nat) in X by lia. congruence.
Qed.
Lemma command_long argv r inp iargs outp oargs al vs : command argv r inp iargs outp oargs al vs -> 2 <= zlen argv.
Proof.
  intros (_ & (_ & NE & _) & args & HW & HF). pose proof (without_len _ _ _ _ HW) as L. assert (2 <= zlen args); [|lia]. clear - HF NE. inversion HF; subst; rewrite !zlen_cons, !zlen_app, ?zlen_cons, ?zlen_app;
  repeat match goal with |- context [zlen ?l] => pose proof (zlen_nonneg l); generalize dependent (zlen l); intros end; lia.
Qed.
Lemma main_command glob opens env_of argv r inp iargs outp oargs al vs : command argv r inp iargs outp oargs al vs -> exists io oo, are_options iargs io /\ are_options oargs oo /\
  main glob opens env_of argv = (pairs <- open_files glob opens inp io outp oo ;; match run (env_of pairs) (8 * List.length (request_args al vs) + 2) (start (request_args al vs)) with
    | Some x => s <- x ;; Ok (Finished (levels_of r) (concat (map (pair_events argv (s_confs s)) pairs))) | None => UB end).
Proof.
  intros HC. pose proof (command_long _ _ _ _ _ _ _ _ HC) as HL. destruct HC as (HA & HG & args & HW & HF). destruct (c189 _ _ _ _ _ HF) as (io & oo & O1 & EN & O2). exists io, oo. split; [exact O1|]. split; [exact O2|].
  rewrite (main_run _ _ _ argv args r HA HL HW). unfold setup_of. rewrite EN. destruct (open_files glob opens inp io outp oo) as [pairs| | |]; cbn [bind]; try reflexivity. destruct (run _ _ _) as [[s| | |]|]; reflexivity.
Qed.
Lemma c256 glob opens env_of argv r inp iargs outp oargs al vs lv evs : (forall pairs, accepts (env_of pairs)) -> command argv r inp iargs outp oargs al vs -> main glob opens env_of argv = Ok (Finished lv evs) ->
  exists pairs evss, map (fun p => h_name (fst p)) pairs = glob inp /\ map (fun p => h_name (snd p)) pairs = glob outp /\ evs = concat evss /\
    Forall2 (pair_called (env_of pairs) al vs (joined argv)) (combine (glob inp) (glob outp)) evss.
Proof.
  intros HE HC HM. destruct (main_command glob opens env_of _ _ _ _ _ _ _ _ HC) as (io & oo & _ & _ & EM). rewrite EM in HM. destruct (open_files glob opens inp io outp oo) as [pairs| | |] eqn:EO; try discriminate HM. cbn [bind] in HM.
  destruct (c190 _ _ _ _ _ _ _ EO) as (_ & N1 & N2 & _). destruct HC as (_ & HG & _). destruct (setup_requests (env_of pairs) al vs (HE pairs) HG) as (x & ER & D). rewrite ER in HM. destruct x as [s| | |]; try discriminate HM. cbn [bind] in HM. injection HM as <- <-.
  exists pairs, (map (pair_events argv (s_confs s)) pairs). split; [exact N1|]. split; [exact N2|]. split; [reflexivity|]. rewrite <- N1, <- N2. clear - D. set (E := env_of pairs) in *. clearbody E. induction pairs as [|p ps IH]; cbn [map combine]; constructor; [|exact IH].
  rewrite pair_events_eq. exists (concat (map (variable_events (h_name (fst p)) (h_name (snd p))) (s_confs s))), (map c_name (filter to_write (s_confs s))). split; [|reflexivity]. apply (vars_run E al _ _ [] vs _ D). reflexivity.
Qed.
