(** Proofs about the command line of the client: the state machine ends, and invents nothing. *)
From Coq Require Import Ascii String Lia.
From Verif Require Import Base ListLib M_COpt S_COpt P_COpt M_CSetup S_CSetup P_CSetup.
From Verif Require P_Even.
Local Open Scope Z_scope.

Definition flag (a : str) : bool := existsb (str_eqb a) flags.
(** ** Termination: a bound for the number of passes *)
Definition rank (st : state) (rest : list str) (name : str) : nat :=
  match st with
  | END | ERROR => 0
  | NEWVAR => if empty name then 1 else 2
  | NEWCAL | NEWVARALIAS => 3
  | VAROPT | VARIOPT | DOWNOPT | PAROPTDOWN | VARALIASOPT => 4
  | CALOPT | PAROPTCAL => 5
  | PARCAL => match rest with a :: _ => if flag a then 4 else 6 | [] => 4 end
  | _ => 1
  end.
Definition passes (s : setup) : nat := 8 * List.length (s_rest s) + rank (s_state s) (s_rest s) (s_name s).
Definition wf (s : setup) : Prop := s_state s = NEWVARALIAS -> at_end s = true \/ is "-v" s = true \/ is "-vi" s = true.

Lemma new_variable_keeps E s s' : new_variable E s = Ok s' -> s_rest s' = s_rest s /\ s_name s' = [] /\ s_state s' = s_state s.
Proof.
  unfold new_variable. intros H. apply bind_Ok in H as (s1 & H & e). injection e as <-. cbn.
  destruct (existsb _ (s_confs s)); [injection H as <-; auto|].
  destruct (match _ with Nowhere => _ | _ => false end); [discriminate|].
  apply bind_Ok in H as (l & _ & H). apply bind_Ok in H as (u & _ & H). injection H as <-. auto.
Qed.
Lemma new_alias_keeps s s' : new_alias s = Ok s' -> s_rest s' = s_rest s /\ s_name s' = s_name s /\ s_state s' = s_state s.
Proof. unfold new_alias. destruct (find_alias _ _); [|destruct (has_value _ _); [|discriminate]]; intros e; injection e as <-; auto. Qed.
Ltac tests := repeat match goal with
  | |- context [if str_eqb ?a ?b then _ else _] => destruct (str_eqb a b) eqn:?
  | |- context [if match ?a with [] => _ | _ => _ end then _ else _] => destruct a eqn:?
  | |- context [if Ascii.eqb ?a ?b then _ else _] => destruct (Ascii.eqb a b) eqn:?
  end.
Lemma flag_eqs a : flag a = str_eqb a (txt "-d") || (str_eqb a (txt "-c") || (str_eqb a (txt "-v") || (str_eqb a (txt "-vi") || (str_eqb a (txt "-p") || false)))).
Proof. reflexivity. Qed.
Lemma step_passes E s s' : wf s -> s_state s <> END -> step E s = Ok s' -> (passes s' < passes s)%nat /\ wf s'.
Proof.
  destruct s as [rest st name iname v vi down d cal c cals par p alias a aliases confs]. intros W N H. cbn [s_state] in N.
  assert (Hr : rest = [] \/ exists x t, rest = x :: t) by (destruct rest; eauto).
  destruct st; try easy; unfold step in H; cbn [s_state] in H.
  all: try solve [
    injection H as <-; unfold passes, wf; destruct Hr as [-> |(x & t & ->)]; cbn - [Nat.mul str_eqb txt flag dash];
    [|unfold is, arg, at_end, next, goto, skip, set_rest, set_state; cbn - [Nat.mul str_eqb txt flag dash];
      destruct t as [|y t]; cbn - [Nat.mul str_eqb txt flag dash]];
    repeat match goal with
    | |- context [str_eqb ?a ?b] => destruct (str_eqb a b) eqn:?; cbn - [Nat.mul str_eqb txt flag dash]
    | |- context [dash ?a] => destruct (dash a); cbn - [Nat.mul str_eqb txt flag dash]
    | |- context [empty ?a] => destruct a; cbn - [Nat.mul str_eqb txt flag dash]
    | |- context [match ?a with [] => _ | _ => _ end] => destruct a; cbn - [Nat.mul str_eqb txt flag dash]
    | |- context [Ascii.eqb ?a ?b] => destruct (Ascii.eqb a b); cbn - [Nat.mul str_eqb txt flag dash]
    end; rewrite ?flag_eqs; repeat match goal with H : str_eqb _ _ = _ |- _ => rewrite H end; cbn [orb];
    repeat match goal with |- context [if ?b then 4%nat else 6%nat] => destruct b end; split; try discriminate; auto; try lia].
  - (* NEWVAR *)
    cbn [s_name] in H. destruct (empty name) eqn:En.
    + injection H as <-. unfold passes, wf. cbn - [Nat.mul]. rewrite En. split; [lia|discriminate].
    + apply bind_Ok in H as (s1 & H1 & H). apply new_variable_keeps in H1 as (R1 & N1 & S1). injection H as <-. cbn [s_rest s_state] in R1, S1.
      unfold passes, wf, at_end, is, arg, next, goto, skip. rewrite R1. destruct Hr as [-> |(x & t & ->)]; cbn [hd tl].
      * cbn - [Nat.mul]. rewrite En, R1. cbn. split; [lia|discriminate].
      * destruct (str_eqb x (txt "-v")); [|destruct (str_eqb x (txt "-vi"))]; cbn - [Nat.mul]; rewrite ?R1, ?N1, ?S1, ?En; cbn - [Nat.mul]; (split; [lia|discriminate]).
  - (* NEWVARALIAS *)
    apply bind_Ok in H as (s1 & H1 & H). apply new_alias_keeps in H1 as (R1 & N1 & S1). injection H as <-. cbn [s_rest s_name s_state] in R1, N1, S1.
    specialize (W eq_refl). unfold passes, wf, at_end, is, arg, next, goto, skip in *. cbn [s_rest] in W. rewrite R1. destruct Hr as [-> |(x & t & ->)]; cbn [hd tl] in *.
    + cbn - [Nat.mul]. rewrite R1. cbn. split; [lia|discriminate].
    + destruct W as [W|[W|W]]; [discriminate| |]; rewrite W; [|destruct (str_eqb x (txt "-v"))]; cbn - [Nat.mul]; (split; [lia|discriminate]).
  - (* NEWCAL *)
    apply bind_Ok in H as ([r p'] & _ & H). destruct r as [f|]; injection H as <-; [|unfold passes, wf; cbn - [Nat.mul]; split; [lia|discriminate]].
    unfold passes, wf, at_end, is, arg, next, goto, skip. destruct Hr as [-> |(x & t & ->)]; cbn - [Nat.mul str_eqb txt].
    + destruct (empty name); split; try discriminate; lia.
    + destruct (str_eqb x (txt "-c")); [|destruct (str_eqb x (txt "-v")); [|destruct (str_eqb x (txt "-vi")); [|destruct (str_eqb x (txt "-d"))]]];
        cbn - [Nat.mul]; (split; [destruct (empty name); lia|discriminate]).
Qed.
Lemma state_eq_END s : s_state s = END \/ s_state s <> END.
Proof. destruct (s_state s); auto; right; discriminate. Qed.
Lemma run_S E n s : s_state s <> END -> run E (S n) s = match step E s with Ok s => run E n s | Throw e => Some (Throw e) | Abort => Some Abort | UB => Some UB end.
Proof. intros N. cbn. destruct (s_state s); auto. easy. Qed.
Lemma run_ends E n : forall s, wf s -> (passes s < n)%nat -> exists r, forall m, run E (n + m) s = Some r.
Proof.
  induction n as [|n IH]; intros s W L; [lia|]. cbn [Nat.add]. destruct (state_eq_END s) as [e|e].
  - exists (Ok s). intros m. cbn. rewrite e. auto.
  - destruct (step E s) as [s'| | |] eqn:Es.
    + destruct (step_passes E s s' W e Es) as [L' W']. destruct (IH s' W') as (r & R); [lia|]. exists r. intros m. rewrite run_S, Es; auto.
    + eexists. intros m. rewrite run_S, Es; auto.
    + eexists. intros m. rewrite run_S, Es; auto.
    + eexists. intros m. rewrite run_S, Es; auto.
Qed.
(** ** Outcomes *)
Lemma mapM_regular {A} (f : A -> res unit) l : (forall x, ends_or_aborts (f x)) -> ends_or_aborts (mapM f l).
Proof.
  intros R. induction l as [|x l IH]; cbn; auto. pose proof (R x). destruct (f x); cbn in *; auto. destruct (mapM f l); cbn in *; auto.
Qed.
Lemma step_regular E s : regular E -> ends_or_aborts (step E s).
Proof.
  intros (R1 & R2 & R3). unfold step. destruct (s_state s); try exact I.
  - destruct (empty (s_name s)); [exact I|]. unfold new_variable. destruct (existsb _ (s_confs s)); [exact I|]. cbn [bind].
    destruct (match _ with Nowhere => _ | _ => false end); [exact I|].
    match goal with |- context [mapM ?f ?l] => pose proof (mapM_regular f l (fun x => R1 _ _ _ _)) as X; destruct (mapM f l); cbn in X; try easy end. cbn [bind].
    match goal with |- context [e_down E ?a ?b ?c ?d ?e ?f] => pose proof (R2 a b c d e f) as Y; destruct (e_down E a b c d e f); cbn in Y; try easy end.
  - unfold new_alias. destruct (find_alias _ _); [exact I|]. destruct (has_value _ _); exact I.
  - unfold open_parameters. destruct (empty (s_par s)); [exact I|]. unfold get_value. destruct (assoc _ _); [|exact I].
    match goal with |- context [e_par E ?a ?b] => pose proof (R3 a b) as Y; destruct (e_par E a b) as [[|]| | |]; cbn in Y; try easy end.
Qed.
Lemma run_regular E n : regular E -> forall s r, run E n s = Some r -> ends_or_aborts r.
Proof.
  intros R. induction n as [|n IH]; intros s r H.
  - cbn in H. destruct (s_state s); try discriminate. injection H as <-. exact I.
  - destruct (state_eq_END s) as [e|e]; [cbn in H; rewrite e in H; injection H as <-; exact I|].
    rewrite run_S in H by auto. pose proof (step_regular E s R). destruct (step E s); [eauto| | |]; injection H as <-; auto.
Qed.

(** ** Nothing is invented *)
Definition suffix (args rest : list str) : Prop := exists b, args = b ++ rest.
Definition after (args : list str) (f : str) (rest : list str) : Prop := exists b, args = b ++ f :: rest.
Definition mentioned (args : list str) (o : options) : Prop :=
  uniq (o_pairs o) /\ forall k v, holds o k v -> exists a ws w, In a args /\ Words (txt " ") a ws /\ In w ws /\ Assigns w k v.
Lemma suffix_tl args x t : suffix args (x :: t) -> suffix args t.
Proof. intros [b ->]. exists (b ++ [x]). rewrite <- app_assoc. auto. Qed.
Lemma suffix_after args x t f : suffix args (x :: t) -> str_eqb x (txt f) = true -> after args (txt f) t.
Proof. intros [b ->] e. destruct (str_eqb_spec x (txt f)); [subst|discriminate]. exists b. auto. Qed.
Lemma after_suffix args f t : after args f t -> suffix args t.
Proof. intros [b ->]. exists (b ++ [f]). rewrite <- app_assoc. auto. Qed.
Lemma after_follows args f n t : after args f (n :: t) -> follows args f n.
Proof. intros [b ->]. exists b, t. auto. Qed.
Lemma suffix_In args x t : suffix args (x :: t) -> In x args.
Proof. intros [b ->]. apply in_app_iff. right. left. auto. Qed.
Lemma mentioned_add args a o : In a args -> mentioned args o -> mentioned args (add_options a o).
Proof.
  intros I [U M]. split; [apply add_words_uniq; auto|]. intros k v H. apply add_words_holds in H as [(b & w & c & e & A & _)|[_ H]]; auto.
  exists a, (split (txt " ") a), w. split; auto. split; [apply split_iff; auto|]. split; auto. rewrite e. apply in_app_iff. right. left. auto.
Qed.
Lemma mentioned_clear args o : mentioned args (clear o).
Proof. split; [constructor|intros k v []]. Qed.
Lemma mentioned_none args : mentioned args no_options.
Proof. split; [constructor|intros k v []]. Qed.
Definition conf_ok (args : list str) (c : config) : Prop :=
  proper_name (c_name c) /\ follows args (txt "-v") (c_name c) /\ mentioned args (c_vopts c) /\
  proper_name (c_input c) /\ (c_input c = c_name c \/ follows args (txt "-vi") (c_input c)) /\ mentioned args (c_iopts c) /\
  (c_down c = txt "nearestNeighbour" \/ follows args (txt "-d") (c_down c)) /\ mentioned args (c_dopts c) /\
  (forall n o p, In (n, o, p) (c_cals c) -> follows args (txt "-c") n /\ mentioned args o).
Record sound (args : list str) (s : setup) : Prop := {
  so_rest : suffix args (s_rest s);
  so_state : match s_state s with
             | VAR => after args (txt "-v") (s_rest s) | VARI => after args (txt "-vi") (s_rest s) | DOWN => after args (txt "-d") (s_rest s) | CAL => after args (txt "-c") (s_rest s)
             | CALOPT | PARCAL | PAROPTCAL | NEWCAL => follows args (txt "-c") (s_cal s)
             | END => s_rest s = []
             | _ => True
             end;
  so_name : s_name s = [] \/ proper_name (s_name s) /\ follows args (txt "-v") (s_name s);
  so_iname : s_iname s = [] \/ proper_name (s_iname s) /\ follows args (txt "-vi") (s_iname s);
  so_v : mentioned args (s_v s); so_vi : mentioned args (s_vi s); so_d : mentioned args (s_d s); so_c : mentioned args (s_c s);
  so_down : s_down s = txt "nearestNeighbour" \/ follows args (txt "-d") (s_down s);
  so_cals : forall n o p, In (n, o, p) (s_cals s) -> follows args (txt "-c") n /\ mentioned args o;
  so_confs : Forall (conf_ok args) (s_confs s);
  so_uniq : NoDup (map c_name (s_confs s)) }.
Lemma dash_false x : match x with c :: _ => Ascii.eqb c "-"%char | [] => false end = false -> ~ dashed x.
Proof. intros D [t ->]. discriminate. Qed.
Lemma new_name args f x t : after args f (x :: t) -> ~ dashed x -> x = [] \/ proper_name x /\ follows args f x.
Proof. intros A D. destruct x; auto. right. split; [split; [discriminate|auto]|eapply after_follows; eauto]. Qed.
Lemma new_variable_sound E args s s' : s_name s <> [] -> sound args s -> s_state s = NEWVAR -> new_variable E s = Ok s' -> sound args s'.
Proof.
  intros N S St H. unfold new_variable in H. apply bind_Ok in H as (s1 & H & e). injection e as <-.
  assert (K : s_rest s1 = s_rest s /\ s_state s1 = NEWVAR /\ s_c s1 = s_c s /\ Forall (conf_ok args) (s_confs s1) /\ NoDup (map c_name (s_confs s1))).
  { destruct S as [Srest Sst Sn Si Sv Svi Sd Sc Sdn Scals Sconfs Su].
    destruct (existsb _ (s_confs s)) eqn:Ex; [injection H as <-; auto|].
    destruct (match _ with Nowhere => _ | _ => false end); [discriminate|].
    apply bind_Ok in H as (l & _ & H). apply bind_Ok in H as (u & _ & H). injection H as <-. cbn.
    destruct Sn as [Sn|[Pn Fn]]; [easy|].
    split; [auto|]. split; [auto|]. split; [auto|]. split.
    - apply Forall_app. split; auto. constructor; auto. unfold conf_ok; cbn. split; [auto|]. split; [auto|]. split; [auto|].
      destruct Si as [Ei|[Pi Fi]].
      { rewrite Ei. cbn. split; [auto|]. split; [auto|]. split; [auto|]. split; [auto|]. split; [auto|]. auto. }
      destruct (s_iname s) as [|ci ti]; [destruct Pi; easy|]. cbn.
      split; [auto|]. split; [auto|]. split; [auto|]. split; [auto|]. split; [auto|]. auto.
    - rewrite map_app. cbn. apply P_Even.NoDup_app_intro; auto; [repeat constructor; auto|]. intros z I [<-|[]]. apply in_map_iff in I as (c & e & I).
      assert (existsb (fun c => str_eqb (c_name c) (s_name s)) (s_confs s) = true); [|congruence].
      apply existsb_exists. exists c. split; auto. rewrite e. apply str_eqb_refl. }
  destruct K as (K1 & K2 & K3 & K4 & K5). destruct S. constructor; cbn; rewrite ?K1, ?K2, ?K3; auto using mentioned_clear. intros n o p [].
Qed.
Lemma suffix_after_and args x t f b : suffix args (x :: t) -> b && str_eqb x (txt f) = true -> after args (txt f) t.
Proof. intros S e. apply andb_true_iff in e as [_ e]. eapply suffix_after; eauto. Qed.
Local Hint Resolve suffix_after_and suffix_tl suffix_after after_suffix after_follows suffix_In mentioned_add mentioned_clear mentioned_none new_name : snd.
Lemma step_sound E args s s' : sound args s -> s_state s <> END -> step E s = Ok s' -> sound args s'.
Proof.
  intros S N H. unfold step in H.
  destruct (s_state s) eqn:St; try easy.
  all: try solve [
    destruct s as [rest st name iname v vi down d cal c cals par p alias a aliases confs]; destruct S as [Srest Sst Sn Si Sv Svi Sd Sc Sdn Scals Sconfs Su];
    cbn [s_rest s_state s_name s_iname s_v s_vi s_down s_d s_cal s_c s_cals s_par s_p s_alias s_a s_aliases s_confs] in *; subst st;
    injection H as <-;
    unfold at_end, is, arg, next, goto, skip; destruct rest as [|x t]; cbn - [str_eqb txt dash add_options];
    [|try (match goal with |- context [dash ?a] => destruct (dash a) eqn:Da; [|apply dash_false in Da; cbn in Da] end); try destruct t as [|y t];
      repeat (cbn - [str_eqb txt dash add_options]; match goal with |- context [if ?b then _ else _] => destruct b eqn:? end) ];
    constructor; cbn - [txt add_options]; eauto 6 with snd].
  - cbn in H. destruct (empty (s_name s)) eqn:En.
    + injection H as <-. destruct S; constructor; auto. cbn. auto.
    + apply bind_Ok in H as (s1 & H1 & H). pose proof (new_variable_keeps _ _ _ H1) as (R1 & _ & _).
      apply new_variable_sound with (args := args) in H1; auto; [|destruct (s_name s); easy]. injection H as <-.
      destruct H1 as [Srest Sst Sn Si Sv Svi Sd Sc Sdn Scals Sconfs Su]. destruct s1 as [rest st name iname v vi down d cal c cals par p alias a aliases confs].
      cbn [s_rest s_state s_name s_iname s_v s_vi s_down s_d s_cal s_c s_cals s_par s_p s_alias s_a s_aliases s_confs] in *.
      unfold at_end, is, arg, next, goto, skip; destruct rest as [|x t]; cbn - [str_eqb txt]; [constructor; cbn - [txt]; eauto 6 with snd|].
      destruct (str_eqb x (txt "-v")) eqn:E1; [|destruct (str_eqb x (txt "-vi")) eqn:E2]; cbn - [str_eqb txt]; constructor; cbn - [txt]; eauto 6 with snd.
  - apply bind_Ok in H as (s1 & H1 & H).
    assert (S1 : sound args s1 /\ s_state s1 = NEWVARALIAS).
    { unfold new_alias in H1. destruct (find_alias _ _); [injection H1 as <-; auto|]. destruct (has_value _ _); [|discriminate]. injection H1 as <-.
      split; auto. destruct S; constructor; cbn - [txt]; auto. }
    clear S. destruct S1 as [[Srest Sst Sn Si Sv Svi Sd Sc Sdn Scals Sconfs Su] St1]. destruct s1 as [rest st name iname v vi down d cal c cals par p alias a aliases confs].
    cbn [s_rest s_state s_name s_iname s_v s_vi s_down s_d s_cal s_c s_cals s_par s_p s_alias s_a s_aliases s_confs] in *. injection H as <-.
    unfold at_end, is, arg, next, goto, skip; destruct rest as [|x t]; cbn - [str_eqb txt]; [constructor; cbn - [txt]; eauto 6 with snd|].
    destruct (str_eqb x (txt "-v")) eqn:E1; [|destruct (str_eqb x (txt "-vi")) eqn:E2]; cbn - [str_eqb txt]; constructor; cbn - [txt]; eauto 6 with snd.
  - apply bind_Ok in H as ([r p'] & _ & H). destruct s as [rest st name iname v vi down d cal c cals par p alias a aliases confs]; destruct S as [Srest Sst Sn Si Sv Svi Sd Sc Sdn Scals Sconfs Su].
    cbn [s_rest s_state s_name s_iname s_v s_vi s_down s_d s_cal s_c s_cals s_par s_p s_alias s_a s_aliases s_confs] in *. subst st.
    destruct r as [f|]; injection H as <-; [|constructor; cbn - [txt]; auto].
    assert (Scals' : forall n o q, In (n, o, q) (cals ++ [(cal, c, f)]) -> follows args (txt "-c") n /\ mentioned args o).
    { intros n o q I. apply in_app_iff in I as [I|[e|[]]]; [eauto|]. injection e as <- <- <-. auto. }
    unfold at_end, is, arg, next, goto, skip; destruct rest as [|x t]; cbn - [str_eqb txt]; [constructor; cbn - [txt]; eauto 6 with snd|].
    repeat (cbn - [str_eqb txt]; match goal with |- context [if ?b then _ else _] => destruct b eqn:? end); constructor; cbn - [txt]; eauto 6 with snd.
Qed.
Lemma run_sound E args n : forall s s', sound args s -> run E n s = Some (Ok s') -> sound args s' /\ s_state s' = END.
Proof.
  induction n as [|n IH]; intros s s' S H.
  - cbn in H. destruct (s_state s) eqn:e; try discriminate. injection H as <-. auto.
  - destruct (state_eq_END s) as [e|e]; [cbn in H; rewrite e in H; injection H as <-; auto|].
    rewrite run_S in H by auto. destruct (step E s) as [s1| | |] eqn:Es; try discriminate. eapply IH; [|eauto]. eapply step_sound; eauto.
Qed.
Lemma start_sound args : sound args (start args).
Proof. constructor; cbn - [txt]; auto using mentioned_none. exists []; auto. intros n o p []. constructor. Qed.
Lemma start_wf args : wf (start args).
Proof. unfold wf. cbn. discriminate. Qed.
Theorem c191 E args : regular E -> exists r, ends_or_aborts r /\ forall n, (8 * List.length args + 2 <= n)%nat -> run E n (start args) = Some r.
Proof.
  intros R. destruct (run_ends E (8 * List.length args + 2) (start args) (start_wf args)) as (r & H); [unfold passes; cbn - [Nat.mul]; lia|].
  exists r. split; [eapply run_regular; [eauto|apply (H 0%nat)]|]. intros n L. replace n with (8 * List.length args + 2 + (n - (8 * List.length args + 2)))%nat by lia. apply H.
Qed.
Theorem c192 E args n s : run E n (start args) = Some (Ok s) ->
  s_rest s = [] /\ NoDup (map c_name (s_confs s)) /\
  forall c, In c (s_confs s) ->
    proper_name (c_name c) /\ follows args (txt "-v") (c_name c) /\
    proper_name (c_input c) /\ (c_input c = c_name c \/ follows args (txt "-vi") (c_input c)) /\
    (c_down c = txt "nearestNeighbour" \/ follows args (txt "-d") (c_down c)) /\
    (forall n o p, In (n, o, p) (c_cals c) -> follows args (txt "-c") n) /\
    (forall o, o = c_vopts c \/ o = c_iopts c \/ o = c_dopts c \/ (exists n p, In (n, o, p) (c_cals c)) ->
       forall k v, holds o k v -> exists a ws w, In a args /\ Words (txt " ") a ws /\ In w ws /\ Assigns w k v).
Proof.
  intros H. destruct (run_sound E args n _ s (start_sound args) H) as [[Srest Sst Sn Si Sv Svi Sd Sc Sdn Scals Sconfs Su] e]. rewrite e in Sst.
  split; [auto|]. split; [auto|]. intros c I. rewrite Forall_forall in Sconfs. destruct (Sconfs c I) as (A1 & A2 & A3 & A4 & A5 & A6 & A7 & A8 & A9).
  split; [auto|]. split; [auto|]. split; [auto|]. split; [auto|]. split; [auto|]. split; [intros; eapply A9; eauto|].
  intros o [-> |[-> |[-> |(m & p & J)]]]; [apply A3|apply A6|apply A8|eapply A9; eauto].
Qed.
