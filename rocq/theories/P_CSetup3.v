(** Proofs about the command line of the client: what is asked for is set up. *)
From Coq Require Import Ascii String Lia.
From Verif Require Import Base ListLib M_COpt S_COpt P_COpt M_CSetup S_CSetup P_CSetup P_CSetup2.
Local Open Scope Z_scope.

Definition reach (E : env) (s s' : setup) : Prop := exists n, forall m, run E (n + m) s = run E m s'.
Lemma reach_refl E s : reach E s s.
Proof. exists 0%nat. auto. Qed.
Lemma reach_trans E a b c : reach E a b -> reach E b c -> reach E a c.
Proof. intros [n H] [m K]. exists (n + m)%nat. intros k. rewrite <- Nat.add_assoc, H, K. auto. Qed.
Lemma reach_step E s s' s'' : s_state s <> END -> step E s = Ok s' -> reach E s' s'' -> reach E s s''.
Proof. intros N H [n K]. exists (S n). intros m. cbn [Nat.add]. rewrite run_S, H; auto. Qed.

Lemma plain_eqs a : plain a -> str_eqb a (txt "-d") = false /\ str_eqb a (txt "-c") = false /\ str_eqb a (txt "-v") = false /\ str_eqb a (txt "-vi") = false /\ str_eqb a (txt "-p") = false.
Proof.
  intros P. assert (K : forall f, In f flags -> str_eqb a f = false).
  { intros f I. destruct (str_eqb_spec a f); auto. subst. contradiction. }
  repeat split; apply K; cbn; auto 6.
Qed.
Lemma proper_eqs n : proper_name n -> exists c t, n = c :: t /\ Ascii.eqb c "-"%char = false.
Proof.
  intros [N D]. destruct n as [|c t]; [easy|]. exists c, t. split; auto. destruct (Ascii.eqb_spec c "-"%char); auto. subst. exfalso. apply D. eexists; eauto.
Qed.
(** the state and the arguments left after the part of a variable, downscaler or calibrator has been read *)
Definition dispatch (tail : list str) : state * list str :=
  match tail with
  | [] => (NEWVAR, [])
  | a :: t => if str_eqb a (txt "-vi") then (VARI, t) else if str_eqb a (txt "-d") then (DOWN, t) else if str_eqb a (txt "-c") then (CAL, t) else (NEWVAR, tail)
  end.
(** what may follow *)
Definition starts (fs : list string) (tail : list str) : Prop := tail = [] \/ exists f t, In f fs /\ tail = txt f :: t.

Notation St rest st name iname v vi down d cal c cals par p alias a aliases confs :=
  {| s_rest := rest; s_state := st; s_name := name; s_iname := iname; s_v := v; s_vi := vi; s_down := down; s_d := d; s_cal := cal; s_c := c; s_cals := cals;
     s_par := par; s_p := p; s_alias := alias; s_a := a; s_aliases := aliases; s_confs := confs |}.
Ltac one := eapply reach_step; [discriminate|reflexivity|].
Ltac split_starts H := destruct H as [-> |(? & ? & H & ->)]; [|cbn in H; repeat (destruct H as [H|H]; [subst|]); [..|destruct H]].
Section Parts.
Context (E : env) (alias : str) (a : options) (aliases : list (str * options)) (confs : list config).

Lemma opts_v tail name iname vi down d cal c cals par p : starts ["-v"; "-vi"; "-d"; "-c"]%string tail -> forall args v, Forall plain args ->
  reach E (St (args ++ tail) VAROPT name iname v vi down d cal c cals par p alias a aliases confs)
    (St (snd (dispatch tail)) (fst (dispatch tail)) name iname (add_all args v) vi down d cal c cals par p alias a aliases confs).
Proof.
  intros T. induction args as [|x args IH]; intros v F.
  - cbn [app add_all fold_left]. split_starts T; one; apply reach_refl.
  - inversion F; subst. eapply reach_trans; [|apply IH; auto]. destruct (plain_eqs x) as (E1 & E2 & E3 & E4 & E5); auto.
    eapply reach_step; [discriminate| |apply reach_refl]. cbn - [str_eqb txt add_options]. unfold is, arg. cbn - [str_eqb txt add_options]. rewrite E1, E2, E3, E4, E5. reflexivity.
Qed.
Lemma part_v tail name v vi down d cal c cals par p args : starts ["-v"; "-vi"; "-d"; "-c"]%string tail -> proper_name name -> Forall plain args ->
  reach E (St (name :: args ++ tail) VAR [] [] v vi down d cal c cals par p alias a aliases confs)
    (St (snd (dispatch tail)) (fst (dispatch tail)) name [] (add_all args v) vi down d cal c cals par p alias a aliases confs).
Proof.
  intros T Pn F. destruct (proper_eqs _ Pn) as (ch & tn & -> & Ed). destruct args as [|x args].
  - cbn [app add_all fold_left]. split_starts T; (eapply reach_step; [discriminate|unfold step, dash, arg; cbn [s_state s_rest hd at_end]; rewrite Ed; reflexivity|]; apply reach_refl).
  - inversion F; subst. destruct (plain_eqs x) as (E1 & E2 & E3 & E4 & E5); auto.
    eapply reach_step; [discriminate| |apply opts_v; eauto].
    unfold step, dash, is, arg; cbn - [str_eqb txt Ascii.eqb]; rewrite Ed, E1, E2, E3, E4, E5. reflexivity.
Qed.
Lemma opts_vi tail name iname v down d cal c cals par p : starts ["-d"; "-c"]%string tail -> forall args vi, Forall plain args ->
  reach E (St (args ++ tail) VARIOPT name iname v vi down d cal c cals par p alias a aliases confs)
    (St (snd (dispatch tail)) (fst (dispatch tail)) name iname v (add_all args vi) down d cal c cals par p alias a aliases confs).
Proof.
  intros T. induction args as [|x args IH]; intros vi F.
  - cbn [app add_all fold_left]. split_starts T; one; apply reach_refl.
  - inversion F; subst. eapply reach_trans; [|apply IH; auto]. destruct (plain_eqs x) as (E1 & E2 & E3 & E4 & E5); auto.
    eapply reach_step; [discriminate| |apply reach_refl]. cbn - [str_eqb txt add_options]. unfold is, arg. cbn - [str_eqb txt add_options]. rewrite E1, E2, E3, E4, E5. reflexivity.
Qed.
Lemma part_vi tail name iname v vi down d cal c cals par p args : starts ["-v"; "-d"; "-c"]%string tail -> (args <> [] -> starts ["-d"; "-c"]%string tail) -> name <> [] -> proper_name iname ->
  Forall plain args ->
  reach E (St (iname :: args ++ tail) VARI name [] v vi down d cal c cals par p alias a aliases confs)
    (St (snd (dispatch tail)) (fst (dispatch tail)) name iname v (add_all args vi) down d cal c cals par p alias a aliases confs).
Proof.
  intros T T' Nn Pn F. destruct (proper_eqs _ Pn) as (ch & tn & -> & Ed). destruct name as [|cn nn]; [easy|]. destruct args as [|x args].
  - cbn [app add_all fold_left]. split_starts T; (eapply reach_step; [discriminate|unfold step, dash, arg; cbn [s_state s_rest hd at_end]; rewrite Ed; reflexivity|]; apply reach_refl).
  - inversion F; subst. destruct (plain_eqs x) as (E1 & E2 & E3 & E4 & E5); auto.
    eapply reach_step; [discriminate| |apply opts_vi; eauto; apply T'; discriminate].
    unfold step, dash, is, arg; cbn - [str_eqb txt Ascii.eqb]; rewrite Ed, E1, E2, E3, E4, E5. reflexivity.
Qed.
Lemma opts_d tail name iname v vi down cal c cals par p : starts ["-v"; "-c"]%string tail -> forall args d, Forall plain args ->
  reach E (St (args ++ tail) DOWNOPT name iname v vi down d cal c cals par p alias a aliases confs)
    (St (snd (dispatch tail)) (fst (dispatch tail)) name iname v vi down (add_all args d) cal c cals par p alias a aliases confs).
Proof.
  intros T. induction args as [|x args IH]; intros d F.
  - cbn [app add_all fold_left]. split_starts T; one; apply reach_refl.
  - inversion F; subst. eapply reach_trans; [|apply IH; auto]. destruct (plain_eqs x) as (E1 & E2 & E3 & E4 & E5); auto.
    eapply reach_step; [discriminate| |apply reach_refl]. cbn - [str_eqb txt add_options]. unfold is, arg. cbn - [str_eqb txt add_options]. rewrite E2, E3, E4, E5. reflexivity.
Qed.
Lemma part_d tail name iname v vi down0 down d cal c cals par p args : starts ["-v"; "-c"]%string tail -> Forall plain args ->
  reach E (St (down :: args ++ tail) DOWN name iname v vi down0 d cal c cals par p alias a aliases confs)
    (St (snd (dispatch tail)) (fst (dispatch tail)) name iname v vi down (add_all args d) cal c cals par p alias a aliases confs).
Proof.
  intros T F. destruct args as [|x args].
  - cbn [app add_all fold_left]. split_starts T; one; apply reach_refl.
  - inversion F; subst. destruct (plain_eqs x) as (E1 & E2 & E3 & E4 & E5); auto.
    eapply reach_step; [discriminate| |apply opts_d; eauto].
    unfold step, is, arg; cbn - [str_eqb txt]; rewrite E1, E2, E3, E4, E5. reflexivity.
Qed.
(** calibrators *)
Lemma opts_c tail name iname v vi down d cal cals par p st : starts ["-v"; "-c"; "-p"]%string tail -> st = (match tail with x :: _ => if str_eqb x (txt "-p") then PARCAL else NEWCAL | [] => NEWCAL end) ->
  forall args c, Forall plain args ->
  reach E (St (args ++ tail) CALOPT name iname v vi down d cal c cals par p alias a aliases confs)
    (St tail st name iname v vi down d cal (add_all args c) cals par p alias a aliases confs).
Proof.
  intros T ->. induction args as [|x args IH]; intros c F.
  - cbn [app add_all fold_left]. split_starts T; one; apply reach_refl.
  - inversion F; subst. eapply reach_trans; [|apply IH; auto]. destruct (plain_eqs x) as (E1 & E2 & E3 & E4 & E5); auto.
    eapply reach_step; [discriminate| |apply reach_refl]. cbn - [str_eqb txt add_options]. unfold is, arg. cbn - [str_eqb txt add_options]. rewrite E1, E2, E3, E4, E5. reflexivity.
Qed.
Lemma part_c tail name iname v vi down d cal0 cal c cals par p st args : starts ["-v"; "-c"; "-p"]%string tail ->
  st = (match tail with x :: _ => if str_eqb x (txt "-p") then PARCAL else NEWCAL | [] => NEWCAL end) -> Forall plain args ->
  reach E (St (cal :: args ++ tail) CAL name iname v vi down d cal0 c cals par p alias a aliases confs)
    (St tail st name iname v vi down d cal (add_all args c) cals par p alias a aliases confs).
Proof.
  intros T Es F. destruct args as [|x args].
  - subst st. cbn [app add_all fold_left]. split_starts T; one; apply reach_refl.
  - inversion F; subst. destruct (plain_eqs x) as (E1 & E2 & E3 & E4 & E5); auto.
    eapply reach_step; [discriminate| |apply opts_c; eauto].
    unfold step, is, arg; cbn - [str_eqb txt]; rewrite E1, E2, E3, E4, E5. reflexivity.
Qed.
Lemma opts_p tail name iname v vi down d cal c cals par : starts ["-v"; "-c"]%string tail -> forall args p, Forall plain args ->
  reach E (St (args ++ tail) PAROPTCAL name iname v vi down d cal c cals par p alias a aliases confs)
    (St tail NEWCAL name iname v vi down d cal c cals par (add_all args p) alias a aliases confs).
Proof.
  intros T. induction args as [|x args IH]; intros p F.
  - cbn [app add_all fold_left]. split_starts T; one; apply reach_refl.
  - inversion F; subst. eapply reach_trans; [|apply IH; auto]. destruct (plain_eqs x) as (E1 & E2 & E3 & E4 & E5); auto.
    eapply reach_step; [discriminate| |apply reach_refl]. cbn - [str_eqb txt add_options]. unfold is, arg. cbn - [str_eqb txt add_options]. rewrite E1, E2, E3, E4, E5. reflexivity.
Qed.
(** the file name itself is read as an option, too *)
Lemma part_p tail name iname v vi down d cal c cals par p f args : starts ["-v"; "-c"]%string tail -> plain f -> Forall plain args ->
  reach E (St (txt "-p" :: f :: args ++ tail) PARCAL name iname v vi down d cal c cals par p alias a aliases confs)
    (St tail NEWCAL name iname v vi down d cal c cals f (add_all (f :: args) p) alias a aliases confs).
Proof.
  intros T Pf F. destruct (plain_eqs f) as (E1 & E2 & E3 & E4 & E5); auto.
  apply (reach_step E _ (St (f :: args ++ tail) PARCAL name iname v vi down d cal c cals (txt "-p") p alias a aliases confs)); [discriminate|reflexivity|].
  eapply reach_step; [discriminate|unfold step, is, arg; cbn - [str_eqb txt]; rewrite E1, E2, E3, E4, E5; reflexivity|].
  apply (opts_p tail name iname v vi down d cal c cals f T (f :: args)); auto.
Qed.
End Parts.
