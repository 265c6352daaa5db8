(** The main program of the client: when it finishes, what it writes. *)
From Coq Require Import Ascii String Lia.
From Verif Require Import Base ListLib M_COpt S_COpt P_COpt M_CSetup S_CSetup P_CSetup P_CSetup2 P_CSetup3 P_CSetup4 M_CMain S_CMain P_CMain P_CMain2.
Local Open Scope Z_scope.

Lemma open_ok opens io oo ps : (forall n o b, opens n o b = true) -> forall m l, (forall h, In h m -> ~ In (h_name h) (map fst ps)) -> NoDup (map fst ps) -> (forall x, In x (map fst ps) -> ~ In x (map snd ps)) ->
  exists st, foldM (open_one opens io oo) (m, l) ps = Ok st.
Proof.
  intros HO. induction ps as [|[i o] ps IH]; intros m l Hm ND HD; [eexists; reflexivity|]. cbn [foldM map fst snd] in *. inversion ND as [|? ? Ni ND']; subst. unfold open_one at 1.
  assert (Hio : i <> o) by (intros ->; apply (HD o); left; reflexivity).
  assert (K : forall m', (forall h, In h m' -> In h m \/ h_name h = o) -> find_handle m' i = None).
  { intros m' Hm'. destruct (find_handle m' i) as [h|] eqn:F; [|reflexivity]. apply find_handle_some in F as [F1 F2]. exfalso. apply Hm' in F1 as [F1|F1]; [apply (Hm h F1); left; congruence|congruence]. }
  destruct (find_handle m o) as [h|] eqn:F; cbn [bind]; rewrite ?HO; cbn [bind].
  - rewrite K by auto. rewrite ?HO. cbn [bind]. apply IH; [|exact ND'|].
    + intros h' H'. apply in_app_or in H' as [H'|[<-|[]]]; [intros X; apply (Hm h' H'); right; exact X|exact Ni].
    + intros x Hx Hy. apply (HD x); right; assumption.
  - rewrite K by (intros h H; apply in_app_or in H as [H|[<-|[]]]; auto). rewrite ?HO. cbn [bind]. apply IH; [|exact ND'|].
    + intros h' H'. apply in_app_or in H' as [H'|[<-|[]]]; [apply in_app_or in H' as [H'|[<-|[]]]|]; [intros X; apply (Hm h' H'); right; exact X| |exact Ni]. cbn [h_name]. intros X. apply (HD o); [right; exact X|left; reflexivity].
    + intros x Hx Hy. apply (HD x); right; assumption.
Qed.
Lemma files_ok glob opens inp io outp oo : (forall n o b, opens n o b = true) -> zlen (glob inp) = zlen (glob outp) -> glob inp <> [] -> NoDup (glob inp) -> (forall n, In n (glob inp) -> ~ In n (glob outp)) ->
  exists pairs, open_files glob opens inp io outp oo = Ok pairs.
Proof.
  intros HO HL NE ND HD. unfold open_files. destruct (Z.eqb_spec (zlen (glob inp)) (zlen (glob outp))); [|contradiction]. cbn [negb]. destruct (Z.eqb_spec (zlen (glob inp)) 0) as [K|_]; [destruct (glob inp) as [|x l]; [congruence|]; rewrite zlen_cons in K; pose proof (zlen_nonneg l); lia|].
  destruct (open_ok opens io oo (combine (glob inp) (glob outp)) HO [] []) as ((m & l) & E); [intros h []|rewrite combine_fst by exact HL; exact ND|rewrite combine_fst, combine_snd by exact HL; exact HD|].
  rewrite E. cbn [bind]. exists l. reflexivity.
Qed.
Lemma done_none E al before vs r : done E al before vs r -> (forall v, In v vs -> e_has E (input_name v) = true) -> r <> None.
Proof.
  induction 1 as [before|before v vs r HI HD IH|before v vs c r HN HV HS HD IH|before v vs HN HF HB]; intros H.
  - discriminate.
  - apply IH. intros w Hw. apply H. right. exact Hw.
  - destruct r; [discriminate|]. exfalso. apply IH; [|reflexivity]. intros w Hw. apply H. right. exact Hw.
  - destruct HF as (K & _). rewrite (H v (or_introl eq_refl)) in K. discriminate.
Qed.
Lemma c256_when glob opens env_of argv r inp iargs outp oargs al vs : (forall pairs, accepts (env_of pairs)) -> command argv r inp iargs outp oargs al vs ->
  (forall n o b, opens n o b = true) -> zlen (glob inp) = zlen (glob outp) -> glob inp <> [] -> NoDup (glob inp) -> (forall n, In n (glob inp) -> ~ In n (glob outp)) ->
  (forall pairs v, In v vs -> e_has (env_of pairs) (input_name v) = true) -> exists lv evs, main glob opens env_of argv = Ok (Finished lv evs).
Proof.
  intros HE HC HO HL NE ND HD HH. destruct (main_command glob opens env_of _ _ _ _ _ _ _ _ HC) as (io & oo & _ & _ & EM). destruct (files_ok glob opens inp io outp oo HO HL NE ND HD) as (pairs & EO). rewrite EM, EO. cbn [bind].
  destruct HC as (_ & HG & _). destruct (setup_requests (env_of pairs) al vs (HE pairs) HG) as (x & ER & D). rewrite ER. destruct x as [s| | |]; try contradiction; cbn [bind]; [eauto|]. exfalso. apply (done_none _ _ _ _ _ D); [intros v Hv; apply HH; exact Hv|reflexivity].
Qed.
(** *** the variables written *)
Lemma kept_names E al i o before vs evs ns : vars_called E al i o before vs evs ns -> NoDup ns /\ (forall n, In n ns -> ~ In n before) /\
  (forall n, In n ns <-> ~ In n before /\ exists pre v post, vs = pre ++ v :: post /\ q_name v = n /\ ~ In n (map q_name pre) /\ ~ kept_back v).
Proof.
  induction 1 as [before|before v vs evs ns HI _ (IH1 & IH2 & IH3)|before v vs evs evs' ns ns' HN HV HK1 HK2 _ (IH1 & IH2 & IH3)].
  - split; [constructor|]. split; [intros n []|]. intros n. split; [intros []|]. intros (_ & pre & v & post & E' & _). destruct pre; discriminate E'.
  - split; [exact IH1|]. split; [exact IH2|]. intros n. rewrite IH3. split; intros (Hn & pre & w & post & E' & E1 & E2 & E3); (split; [exact Hn|]).
    + exists (v :: pre), w, post. rewrite E'. split; [reflexivity|]. split; [exact E1|]. split; [|exact E3]. cbn [map]. intros [K|K]; [subst n; congruence|contradiction].
    + destruct pre as [|p pre]; [injection E' as <- <-; congruence|]. injection E' as <- ->. exists pre, w, post. split; [reflexivity|]. split; [exact E1|]. split; [|exact E3]. intros K. apply E2. right. exact K.
  - assert (D : forall n, In n ns -> ~ In n (before ++ [q_name v])) by exact IH2. assert (Dv : ~ In (q_name v) ns) by (intros K; apply (D _ K); apply in_or_app; right; left; reflexivity).
    assert (T : forall n, n <> q_name v -> ((~ In n (before ++ [q_name v]) /\ exists pre w post, vs = pre ++ w :: post /\ q_name w = n /\ ~ In n (map q_name pre) /\ ~ kept_back w) <->
      (~ In n before /\ exists pre w post, v :: vs = pre ++ w :: post /\ q_name w = n /\ ~ In n (map q_name pre) /\ ~ kept_back w))).
    { intros n Nn. split; intros (Hn & pre & w & post & E' & E1 & E2 & E3).
      - split; [intros K; apply Hn; apply in_or_app; left; exact K|]. exists (v :: pre), w, post. rewrite E'. split; [reflexivity|]. split; [exact E1|]. split; [|exact E3]. intros [K|K]; congruence.
      - split; [intros K; apply in_app_or in K as [K|[K|[]]]; congruence|]. destruct pre as [|p pre]; [injection E' as <- <-; congruence|]. injection E' as <- ->. exists pre, w, post. split; [reflexivity|]. split; [exact E1|]. split; [|exact E3]. intros K. apply E2. right. exact K. }
    assert (Tv : (~ In (q_name v) before /\ exists pre w post, v :: vs = pre ++ w :: post /\ q_name w = q_name v /\ ~ In (q_name v) (map q_name pre) /\ ~ kept_back w) <-> ~ kept_back v).
    { split.
      - intros (_ & pre & w & post & E' & E1 & E2 & E3). destruct pre as [|p pre]; [injection E' as <- <-; exact E3|]. injection E' as <- _. exfalso. apply E2. left. reflexivity.
      - intros K. split; [exact HN|]. exists [], v, vs. repeat split; auto. }
    assert (Dec : kept_back v \/ ~ kept_back v).
    { destruct HV as (vo & _ & _ & _ & _ & Hvo & _). set (c := {| c_name := []; c_vopts := vo; c_input := []; c_iopts := vo; c_source := Nowhere; c_down := []; c_dopts := vo; c_cals := [] |}).
      destruct (to_write c) eqn:W; [right|left]; [intros K; apply (to_write_iff v c Hvo) in K; congruence|apply (to_write_iff v c Hvo); exact W]. }
    destruct Dec as [K|K]; [rewrite (HK1 K)|rewrite (HK2 K)].
    + split; [exact IH1|]. split; [intros n Hn X; apply (D n Hn); apply in_or_app; left; exact X|]. intros n. destruct (list_eq_dec ascii_dec n (q_name v)) as [->|Nn]; [rewrite Tv; split; [intros X; contradiction|intros X; contradiction]|]. rewrite <- T by exact Nn. apply IH3.
    + split; [constructor; assumption|]. split; [intros n [<-|Hn] X; [contradiction|apply (D n Hn); apply in_or_app; left; exact X]|]. intros n. destruct (list_eq_dec ascii_dec n (q_name v)) as [->|Nn]; [rewrite Tv; split; [intros _; exact K|intros _; left; reflexivity]|]. rewrite <- T by exact Nn. rewrite <- IH3. cbn [In]. split; [intros [X|X]; [congruence|exact X]|auto].
Qed.
Lemma no_write_inside E al i o before vs evs ns : vars_called E al i o before vs evs ns -> forall a b c, ~ In (EvWrite a b c) evs.
Proof.
  induction 1 as [before|before v vs evs ns HI _ IH|before v vs evs evs' ns ns' HN HV HK1 HK2 _ IH]; intros a b c; [intros []|apply IH|]. intros K. apply in_app_or in K as [K|K]; [|exact (IH a b c K)].
  destruct HV as (vo & from & io & dn & cals & _ & _ & _ & _ & -> & HC). destruct K as [K|[K|K]]; [discriminate|discriminate|]. clear - HC K. induction HC as [|q e qs es (n & co & p & -> & _) _ IH]; [destruct K|]. destruct K as [K|K]; [discriminate|auto].
Qed.
Lemma Forall2_In_r {A B} (R : A -> B -> Prop) la lb b : Forall2 R la lb -> In b lb -> exists a, In a la /\ R a b.
Proof. induction 1 as [|x y la lb H _ IH]; intros K; [destruct K|]. destruct K as [<-|K]; [exists x; split; [left; reflexivity|exact H]|]. destruct (IH K) as (a & Ha & R'). exists a. split; [right; exact Ha|exact R']. Qed.
Lemma c257 glob opens env_of argv r inp iargs outp oargs al vs lv evs o ns m : (forall pairs, accepts (env_of pairs)) -> command argv r inp iargs outp oargs al vs -> main glob opens env_of argv = Ok (Finished lv evs) -> In (EvWrite o ns m) evs ->
  In o (glob outp) /\ NoDup ns /\ (forall n, In n ns <-> exists pre v post, vs = pre ++ v :: post /\ q_name v = n /\ ~ In n (map q_name pre) /\ ~ kept_back v).
Proof.
  intros HE HC HM HI. destruct (c256 _ _ _ _ _ _ _ _ _ _ _ _ _ HE HC HM) as (pairs & evss & N1 & N2 & -> & HF). apply in_concat in HI as (es & He & HI). destruct (Forall2_In_r _ _ _ _ HF He) as ((i & o') & Hp & (evs' & ns' & HV & ->)). cbn [fst snd] in *.
  destruct HI as [HI|HI]; [discriminate|]. apply in_app_or in HI as [HI|HI]; [exfalso; exact (no_write_inside _ _ _ _ _ _ _ _ HV _ _ _ HI)|]. destruct HI as [HI|[HI|[HI|[]]]]; try discriminate. injection HI as <- <- <-.
  split; [apply in_combine_r in Hp; exact Hp|]. destruct (kept_names _ _ _ _ _ _ _ _ HV) as (K1 & _ & K3). split; [exact K1|]. intros n. rewrite K3. split; [intros (_ & K); exact K|intros K; split; [intros []|exact K]].
Qed.
(** *** the message *)
Lemma words_space s ws : Words (txt " ") s ws -> Words (txt " ") (txt " " ++ s) ws.
Proof.
  destruct 1 as [s H|sep w rest ws S1 S2 S3 S4 S5]; [constructor; intros c K; apply in_app_or in K as [K|K]; auto|]. rewrite app_assoc. apply W_word; auto. intros c K. apply in_app_or in K as [K|K]; auto.
Qed.
Lemma joined_words l : (forall a, In a l -> a <> [] /\ ~ In " "%char a) -> Words (txt " ") (joined l) l.
Proof.
  induction l as [|a t IH]; intros H; [constructor; intros c []|]. destruct (H a (or_introl eq_refl)) as [NE NS]. assert (NS' : forall c, In c a -> ~ In c (txt " ")) by (intros c Hc [<-|[]]; contradiction).
  destruct t as [|b t].
  - cbn [joined]. pose proof (W_word (txt " ") [] a [] [] (fun c (K : In c []) => match K with end) NE NS' (or_introl eq_refl) (W_end (txt " ") [] (fun c (K : In c []) => match K with end))) as X. cbn [app] in X. rewrite app_nil_r in X. exact X.
  - change (joined (a :: b :: t)) with (a ++ txt " " ++ joined (b :: t)).
    assert (IH' : Words (txt " ") (joined (b :: t)) (b :: t)) by (apply IH; intros c Hc; apply H; right; exact Hc).
    assert (W : Words (txt " ") (txt " " ++ joined (b :: t)) (b :: t)) by (apply words_space; exact IH').
    exact (W_word (txt " ") [] a (txt " " ++ joined (b :: t)) (b :: t) (fun c (K : In c []) => match K with end) NE NS' (or_intror (ex_intro _ " "%char (ex_intro _ (joined (b :: t)) (conj eq_refl (or_introl eq_refl))))) W).
Qed.
Lemma c258 glob opens env_of argv lv evs o ns m : main glob opens env_of argv = Ok (Finished lv evs) -> In (EvWrite o ns m) evs -> (forall a, In a argv -> a <> [] /\ ~ In " "%char a) -> Words (txt " ") m argv.
Proof.
  intros HM HI HA. replace m with (joined argv); [apply joined_words; exact HA|]. unfold main in HM. destruct (first_request argv) as [[| |]|] eqn:F; try discriminate HM.
  - exfalso. clear - F. induction argv as [|a t IH]; [discriminate|]. cbn [first_request] in F. destruct (str_eqb a (txt "--version")); [discriminate|]. destruct (str_eqb a (txt "--help")); [discriminate|auto].
  - destruct (zlen argv <? 2); [discriminate|]. destruct (take_debug argv [] (txt "warn")) as [[args mode]| | |]; try discriminate HM. cbn [bind] in HM. destruct (setup_of glob opens env_of args) as [[pairs confs]| | |]; try discriminate HM. cbn [bind] in HM. injection HM as _ <-.
    apply in_concat in HI as (es & He & HI). apply in_map_iff in He as (p & <- & _). rewrite pair_events_eq in HI. destruct HI as [HI|HI]; [discriminate|]. apply in_app_or in HI as [HI|HI]; [|destruct HI as [HI|[HI|[HI|[]]]]; try discriminate; injection HI as _ _ <-; reflexivity].
    exfalso. apply in_concat in HI as (es & He & HI). apply in_map_iff in He as (c & <- & _). destruct HI as [HI|[HI|HI]]; try discriminate. apply in_map_iff in HI as ([[n co] q] & HI & _). discriminate.
Qed.
