(** Proofs about the command line of the client: whole command lines. *)
From Coq Require Import Ascii String Lia.
From Verif Require Import Base ListLib M_COpt S_COpt P_COpt M_CSetup S_CSetup P_CSetup P_CSetup2 P_CSetup3.
Local Open Scope Z_scope.

Lemma read_word_solid v x : v <> [] -> solid v -> read_word v x = v.
Proof.
  intros N S. unfold read_word. destruct v as [|c v]; [easy|].
  assert (F : first_not_of white (c :: v) = c :: v).
  { cbn - [white]. destruct (has_char white c) eqn:Hc; auto. exfalso. apply has_char_In in Hc. apply (S c); auto. left; auto. }
  rewrite F. clear F N. set (w := c :: v) in *. clearbody w. induction w as [|y w IH]; auto. cbn - [white].
  destruct (has_char white y) eqn:Hc; [exfalso; apply has_char_In in Hc; apply (S y); auto; left; auto|].
  destruct (until_first_of white w) as [u r]. cbn in *. f_equal. apply IH. intros z Iz. apply S. right; auto.
Qed.
Lemma assigned_nonempty ws k v : LastAssigns ws k v -> k <> [] /\ v <> [].
Proof. intros (b & w & c & _ & (K & V & _) & _). auto. Qed.
Lemma add_option_holds k v o : k <> [] -> v <> [] -> uniq (o_pairs o) -> forall k' v', holds (add_option k v o) k' v' <-> (k' = k /\ v' = v) \/ (k' <> k /\ holds o k' v').
Proof.
  intros Nk Nv U k' v'. destruct k as [|ck k]; [easy|]. destruct v as [|cv v]; [easy|]. unfold add_option, holds. cbn [o_pairs].
  remember (ck :: k) as key. remember (cv :: v) as value. clear Heqkey Heqvalue. destruct o as [l seen]. cbn [o_pairs] in *. unfold uniq in U. induction l as [|[x y] l IH]; cbn.
  - intuition congruence.
  - inversion U as [|? ? Ni U']; subst. specialize (IH U'). destruct (str_eqb_spec x key) as [->|Nx]; cbn.
    + split.
      * intros [e|I]; [injection e as <- <-; auto|]. right. split; [|auto]. intros ->. apply Ni. apply in_map_iff. exists (key, v'). auto.
      * intros [[-> ->]|[N [e|I]]]; [auto|injection e as <- <-; congruence|auto].
    + rewrite IH. split; [intros [e|[?|[? ?]]]; auto; injection e as <- <-; auto|intros [?|[? [?|?]]]; auto].
Qed.
Lemma dispatch_cal tail : starts ["-v"; "-c"]%string tail -> dispatch tail = match tail with x :: t => if str_eqb x (txt "-c") then (CAL, t) else (NEWVAR, tail) | [] => (NEWVAR, []) end.
Proof. intros T. split_starts T; reflexivity. Qed.
Section Whole.
Context (E : env) (Ea : accepts E) (alias : str) (a : options) (aliases : list (str * options)) (confs : list config).

Lemma one_cal tail name iname v vi down d cal0 c cals p q : starts ["-v"; "-c"]%string tail -> good_cal q -> o_pairs c = [] -> uniq (o_pairs p) ->
  exists cal' c' k p', reach E (St (q_cal q :: q_copts q ++ part "-p" (q_par q) ++ tail) CAL name iname v vi down d cal0 c cals [] p alias a aliases confs)
    (St (snd (dispatch tail)) (fst (dispatch tail)) name iname v vi down d cal' c' (cals ++ [k]) [] p' alias a aliases confs) /\
    cal_done q k /\ o_pairs c' = [] /\ uniq (o_pairs p').
Proof.
  intros T [Fc G] Ec Up. destruct (q_par q) as [[f args]|] eqn:Eq; cbn [part app].
  - destruct G as (Pf & Nf & Fa & ty & Gt).
    assert (Up1 : uniq (o_pairs (add_all (f :: args) p))) by (apply add_all_uniq; auto).
    assert (Hg : forall k v, given args k v -> holds (add_all (f :: args) p) k v).
    { intros k w Hk. change (add_all (f :: args) p) with (add_all args (add_options f p)). apply add_all_holds; auto. apply add_words_uniq; auto. }
    pose proof (Hg _ _ Gt) as Ht. apply assoc_In in Ht; auto.
    remember (add_all (f :: args) p) as p1 eqn:E1.
    exists [], (clear (add_all (q_copts q) c)), (q_cal q, add_all (q_copts q) c, Some (read_word ty [], add_option (txt "file") f (mark (txt "type") p1))), (add_option (txt "file") f (mark (txt "type") p1)).
    split.
    + eapply reach_trans; [apply (part_c E alias a aliases confs (txt "-p" :: f :: args ++ tail)); auto; right; exists "-p"%string; eexists; split; [cbn; auto|reflexivity]|].
      eapply reach_trans; [apply part_p; auto|]. rewrite <- E1.
      eapply reach_step; [discriminate| |apply reach_refl]. unfold step. cbn [s_state].
      unfold open_parameters. cbn [s_par s_p]. destruct f as [|cf f]; [easy|]. cbn [empty]. unfold get_value. rewrite Ht.
      destruct Ea as (_ & _ & Ep). rewrite Ep. cbn [bind].
      split_starts T; reflexivity.
    + split; [|split; [reflexivity|apply add_option_uniq; auto]].
      unfold cal_done. rewrite Eq. split; auto. split; [apply add_all_options; auto|].
      assert (H' : forall k v, holds (add_option (txt "file") f (mark (txt "type") p1)) k v <-> (k = txt "file" /\ v = f) \/ (k <> txt "file" /\ holds p1 k v)).
      { intros k w. rewrite add_option_holds; auto; [reflexivity|discriminate]. }
      split; [apply H'; auto|]. split; [intros k w Nk Hk; apply H'; right; auto|].
      intros w Gw Sw. assert (w = ty) as -> by (eapply given_fun; eauto). apply read_word_solid; auto. apply given_iff in Gt. eapply assigned_nonempty; eauto.
  - exists [], (clear (add_all (q_copts q) c)), (q_cal q, add_all (q_copts q) c, None), p. split.
    + eapply reach_trans; [apply (part_c E alias a aliases confs tail); [|reflexivity|auto]|].
      { destruct T as [T|(x & t & I & T)]; [left; auto|right; exists x, t; split; auto; cbn in *; intuition]. }
      split_starts T; one; apply reach_refl.
    + split; [|split; [reflexivity|auto]]. unfold cal_done. rewrite Eq. split; auto. split; auto. apply add_all_options; auto.
Qed.
Lemma starts_cals qs tail : starts ["-v"]%string tail -> starts ["-v"; "-c"]%string (concat (map cal_args qs) ++ tail).
Proof.
  intros T. destruct qs as [|q qs].
  - destruct T as [T|(x & t & I & T)]; [left; auto|right; exists x, t; split; auto; cbn in *; intuition].
  - right. exists "-c"%string. eexists. split; [cbn; auto|]. cbn [map concat]. unfold cal_args. cbn [app]. reflexivity.
Qed.
Lemma all_cals tail name iname v vi down d : starts ["-v"]%string tail -> forall qs cal0 c cals p, Forall good_cal qs -> o_pairs c = [] -> uniq (o_pairs p) ->
  let whole := concat (map cal_args qs) ++ tail in
  exists cal' c' ks p', reach E (St (snd (dispatch whole)) (fst (dispatch whole)) name iname v vi down d cal0 c cals [] p alias a aliases confs)
    (St tail NEWVAR name iname v vi down d cal' c' (cals ++ ks) [] p' alias a aliases confs) /\
    Forall2 cal_done qs ks /\ o_pairs c' = [] /\ uniq (o_pairs p').
Proof.
  intros T. induction qs as [|q qs IH]; intros cal0 c cals p F Ec Up whole.
  - exists cal0, c, [], p. split; [|split; [constructor|auto]]. rewrite app_nil_r. subst whole. cbn [map concat app]. split_starts T; apply reach_refl.
  - inversion F; subst. destruct (one_cal (concat (map cal_args qs) ++ tail) name iname v vi down d cal0 c cals p q) as (cal1 & c1 & k & p1 & R & D & Ec1 & Up1); auto using starts_cals.
    destruct (IH cal1 c1 (cals ++ [k]) p1) as (cal2 & c2 & ks & p2 & R2 & D2 & Ec2 & Up2); auto.
    exists cal2, c2, (k :: ks), p2. split; [|split; [constructor; auto|auto]]. rewrite <- app_assoc in R2. cbn [app] in R2.
    eapply reach_trans; [|exact R2].
    assert (Ew : whole = txt "-c" :: (q_cal q :: q_copts q ++ part "-p" (q_par q) ++ concat (map cal_args qs) ++ tail)).
    { subst whole. cbn [map concat]. unfold cal_args at 1. cbn [app]. rewrite <- !app_assoc. reflexivity. }
    rewrite Ew. exact R.
Qed.
(** one variable, from after "-v" to the point where it is set up *)
Lemma one_var tail v vo vi d cal c p : starts ["-v"]%string tail -> good_var v -> (closed_input v \/ tail = []) -> o_pairs vo = [] -> o_pairs vi = [] -> o_pairs d = [] -> o_pairs c = [] -> uniq (o_pairs p) ->
  exists vi' d' cal' c' ks p',
    reach E (St (q_name v :: q_vopts v ++ part "-vi" (q_in v) ++ part "-d" (q_down v) ++ concat (map cal_args (q_cals v)) ++ tail) VAR [] [] vo vi default_downscaler d cal c [] [] p alias a aliases confs)
      (St tail NEWVAR (q_name v) (match q_in v with Some (n, _) => n | None => [] end) (add_all (q_vopts v) vo) vi' (down_name v) d' cal' c' ks [] p' alias a aliases confs) /\
    Forall2 cal_done (q_cals v) ks /\ are_options (match q_in v with Some (_, o) => o | None => [] end) vi' /\ are_options (down_args v) d' /\ o_pairs c' = [] /\ uniq (o_pairs p').
Proof.
  intros T (Pn & Fv & Gi & Gd & Gc) Cl Evo Evi Ed Ec Up.
  set (T3 := concat (map cal_args (q_cals v)) ++ tail).
  assert (S3 : starts ["-v"; "-c"]%string T3) by (apply starts_cals; auto).
  set (T2 := part "-d" (q_down v) ++ T3).
  assert (S2 : starts ["-v"; "-d"; "-c"]%string T2).
  { unfold T2. destruct (q_down v) as [[n o]|]; cbn [part app]; [right; exists "-d"%string; eexists; split; [cbn; auto|reflexivity]|].
    destruct S3 as [S3|(x & t & I & S3)]; [left; auto|right; exists x, t; split; auto; cbn in *; intuition]. }
  set (T1 := part "-vi" (q_in v) ++ T2).
  assert (S1 : starts ["-v"; "-vi"; "-d"; "-c"]%string T1).
  { unfold T1. destruct (q_in v) as [[n o]|]; cbn [part app]; [right; exists "-vi"%string; eexists; split; [cbn; auto|reflexivity]|].
    destruct S2 as [S2|(x & t & I & S2)]; [left; auto|right; exists x, t; split; auto; cbn in *; intuition]. }
  assert (R1 := part_v E alias a aliases confs T1 (q_name v) vo vi default_downscaler d cal c [] [] p (q_vopts v) S1 Pn Fv).
  (* the input variable *)
  assert (X2 : exists vi', reach E (St (snd (dispatch T1)) (fst (dispatch T1)) (q_name v) [] (add_all (q_vopts v) vo) vi default_downscaler d cal c [] [] p alias a aliases confs)
     (St (snd (dispatch T2)) (fst (dispatch T2)) (q_name v) (match q_in v with Some (n, _) => n | None => [] end) (add_all (q_vopts v) vo) vi' default_downscaler d cal c [] [] p alias a aliases confs)
     /\ are_options (match q_in v with Some (_, o) => o | None => [] end) vi').
  { unfold T1. destruct (q_in v) as [[n o]|] eqn:Ei; cbn [part app].
    - destruct Gi as [Pi Fi]. exists (add_all o vi). split; [|apply add_all_options; auto].
      apply (part_vi E alias a aliases confs T2 (q_name v) n (add_all (q_vopts v) vo) vi default_downscaler d cal c [] [] p o); auto; [|apply Pn].
      intros No. unfold T2, T3 in *. destruct (q_down v) as [[nd od]|] eqn:Eqd; cbn [part app]; [right; exists "-d"%string; eexists; split; [cbn; auto|reflexivity]|].
      destruct (q_cals v) as [|q qs] eqn:Eqc; [|right; exists "-c"%string; eexists; split; [cbn; auto|cbn [map concat]; unfold cal_args; cbn [app]; reflexivity]].
      cbn. left. destruct Cl as [Cl|Cl]; auto. exfalso. unfold closed_input in Cl. rewrite Ei, Eqd, Eqc in Cl. destruct o; [easy|]. destruct Cl; auto.
    - exists vi. split; [apply reach_refl|apply (add_all_options [] vi); auto]. }
  destruct X2 as (vi' & R2 & Ovi).
  (* the downscaler *)
  assert (X3 : exists d', reach E (St (snd (dispatch T2)) (fst (dispatch T2)) (q_name v) (match q_in v with Some (n, _) => n | None => [] end) (add_all (q_vopts v) vo) vi' default_downscaler d cal c [] [] p alias a aliases confs)
     (St (snd (dispatch T3)) (fst (dispatch T3)) (q_name v) (match q_in v with Some (n, _) => n | None => [] end) (add_all (q_vopts v) vo) vi' (down_name v) d' cal c [] [] p alias a aliases confs)
     /\ are_options (down_args v) d').
  { unfold T2, down_name, down_args. destruct (q_down v) as [[n o]|] eqn:Eqd; cbn [part app].
    - exists (add_all o d). split; [|apply add_all_options; auto].
      apply (part_d E alias a aliases confs T3 (q_name v) (match q_in v with Some (n, _) => n | None => [] end) (add_all (q_vopts v) vo) vi' default_downscaler n d cal c [] [] p o); auto.
    - exists d. split; [apply reach_refl|apply (add_all_options [] d); auto]. }
  destruct X3 as (d' & R3 & Od).
  destruct (all_cals tail (q_name v) (match q_in v with Some (n, _) => n | None => [] end) (add_all (q_vopts v) vo) vi' (down_name v) d' T (q_cals v) cal c [] p) as (cal' & c' & ks & p' & R4 & D4 & Ec' & Up'); auto.
  exists vi', d', cal', c', ks, p'. split; [|auto].
  eapply reach_trans; [exact R1|]. eapply reach_trans; [exact R2|]. eapply reach_trans; [exact R3|]. exact R4.
Qed.
End Whole.
(** the aliases that the machine knows *)
Definition knows (al : list (str * list str)) (aliases : list (str * options)) : Prop := Forall2 (fun x y => fst x = fst y /\ are_options (snd x) (snd y)) al aliases.
Lemma knows_some al aliases n o : knows al aliases -> find_alias n aliases = Some o -> exists args, In (n, args) al /\ are_options args o.
Proof.
  intros K. unfold find_alias. induction K as [|[x ax] [y oy] al aliases [exy O] K IH]; cbn; [discriminate|]. cbn in exy, O. subst y.
  destruct (str_eqb_spec x n).
  - intros H. injection H as <-. subst. eauto.
  - intros H. destruct (IH H) as (args & I & A). eauto.
Qed.
Lemma knows_none al aliases n : knows al aliases -> find_alias n aliases = None -> forall args, ~ In (n, args) al.
Proof.
  intros K. unfold find_alias. induction K as [|[x ax] [y oy] al aliases [exy O] K IH]; cbn; [intros _ args []|]. cbn in exy, O. subst y.
  destruct (str_eqb_spec x n); [discriminate|]. intros H args [e|I]; [injection e; congruence|eapply IH; eauto].
Qed.
Lemma names_exists n confs : existsb (fun c => str_eqb (c_name c) n) confs = true <-> In n (map c_name confs).
Proof.
  rewrite existsb_exists, in_map_iff. split; intros (c & H1 & H2); exists c; [destruct (str_eqb_spec (c_name c) n); [auto|discriminate]|subst; split; auto; apply str_eqb_refl].
Qed.
Lemma mapM_unit {A} (f : A -> res unit) l : (forall x, f x = Ok tt) -> exists u, mapM f l = Ok u.
Proof. intros H. induction l as [|x l (u & IH)]; cbn; [eauto|]. rewrite H. cbn. rewrite IH. cbn. eauto. Qed.
(** setting up a variable *)
Lemma setup_var E al v tail vo vi' d' cal' c' ks p' alias a aliases confs : accepts E -> knows al aliases -> proper_name (q_name v) ->
  match q_in v with Some (n, _) => n <> [] | None => True end ->
  are_options (q_vopts v) vo -> Forall2 cal_done (q_cals v) ks -> are_options (match q_in v with Some (_, o) => o | None => [] end) vi' -> are_options (down_args v) d' ->
  let s := St tail NEWVAR (q_name v) (match q_in v with Some (n, _) => n | None => [] end) vo vi' (down_name v) d' cal' c' ks [] p' alias a aliases confs in
  let s' confs := St tail NEWVAR [] [] (clear vo) (clear vi') default_downscaler (clear d') cal' c' [] [] p' alias a aliases confs in
  (In (q_name v) (map c_name confs) /\ new_variable E s = Ok (s' confs)) \/
  (~ In (q_name v) (map c_name confs) /\ exists c, var_done E al (map c_name confs) v c /\ (c_source c = Nowhere -> down_name v = txt "bypass") /\ new_variable E s = Ok (s' (confs ++ [c]))) \/
  (~ In (q_name v) (map c_name confs) /\ found E al (map c_name confs) (input_name v) Nowhere /\ down_name v <> txt "bypass" /\ new_variable E s = Abort).
Proof.
  intros (A1 & A2 & _) K Pn Ni Ov Dk Ovi Od s s'. unfold new_variable. unfold s. cbn [s_confs s_name s_iname s_v s_vi s_down s_d s_cals s_aliases].
  destruct (existsb (fun c => str_eqb (c_name c) (q_name v)) confs) eqn:Ex; [left; split; [apply names_exists; auto|reflexivity]|right].
  assert (Nex : ~ In (q_name v) (map c_name confs)) by (intros I; apply names_exists in I; congruence).
  assert (Ein : (if empty (match q_in v with Some (n, _) => n | None => [] end) then q_name v else match q_in v with Some (n, _) => n | None => [] end) = input_name v).
  { unfold input_name. destruct (q_in v) as [[[|ch n] o]|]; cbn; auto. easy. }
  assert (Eio : are_options (input_args v) (if empty (match q_in v with Some (n, _) => n | None => [] end) then vo else vi')).
  { unfold input_args. destruct (q_in v) as [[[|ch n] o]|]; cbn; auto. easy. }
  rewrite Ein. remember (if empty _ then vo else vi') as io eqn:Eo. clear Eo.
  set (src := if e_has E (input_name v) then InFile else _).
  assert (Fs : found E al (map c_name confs) (input_name v) src).
  { unfold src. destruct (e_has E (input_name v)) eqn:Eh; [exact Eh|]. destruct (find_alias (input_name v) aliases) as [o|] eqn:Ef; [split; auto; eapply knows_some; eauto|].
    assert (Na := knows_none _ _ _ K Ef).
    destruct (e_same E) eqn:Es; cbn [andb]; [|split; auto].
    destruct (existsb (fun c => str_eqb (c_name c) (input_name v)) confs) eqn:Ex2; split; auto; split; auto.
    - split; auto. apply names_exists; auto.
    - right. intros I. apply names_exists in I. congruence. }
  clearbody src. destruct (match src with Nowhere => negb (str_eqb (down_name v) (txt "bypass")) | _ => false end) eqn:Em.
  - right. split; auto. destruct src; try discriminate. split; auto. split; [|reflexivity]. intros e. rewrite e, str_eqb_refl in Em. discriminate.
  - left. split; auto. destruct (mapM_unit (fun k : str * options * option (str * options) => e_cal E (q_name v) vo (fst (fst k)) (snd (fst k))) ks) as (u & ->); [intros; apply A1|].
    cbn [bind]. rewrite A2. cbn [bind]. eexists. split; [|split; [|reflexivity]].
    + unfold var_done. cbn. split; [auto|]. split; [auto|]. split; [auto|]. split; [auto|]. split; [auto|]. split; [auto|]. split; auto.
    + cbn. intros ->. destruct (str_eqb_spec (down_name v) (txt "bypass")); [auto|discriminate].
Qed.
Lemma proper_nonempty n : proper_name n -> empty n = false.
Proof. intros [N _]. destruct n; auto. easy. Qed.
Lemma starts_vars vs : starts ["-v"]%string (concat (map var_args vs)).
Proof. destruct vs as [|v vs]; [left; auto|]. right. exists "-v"%string. eexists. split; [cbn; auto|]. cbn [map concat]. unfold var_args. cbn [app]. reflexivity. Qed.
Lemma run_reach E s s' n r : reach E s s' -> run E n s' = Some r -> exists n, run E n s = Some r.
Proof. intros [k H] R. exists (k + n)%nat. rewrite H. auto. Qed.
Lemma all_vars E al alias a aliases : accepts E -> knows al aliases -> forall vs v confs vo vi d cal c p,
  Forall good_var (v :: vs) -> Forall closed_input (removelast (v :: vs)) -> o_pairs vo = [] -> o_pairs vi = [] -> o_pairs d = [] -> o_pairs c = [] -> uniq (o_pairs p) ->
  exists n r, run E n (St (tl (concat (map var_args (v :: vs)))) VAR [] [] vo vi default_downscaler d cal c [] [] p alias a aliases confs) = Some r /\
  match r with
  | Ok s' => exists l, s_confs s' = confs ++ l /\ done E al (map c_name confs) (v :: vs) (Some l)
  | Abort => done E al (map c_name confs) (v :: vs) None
  | _ => False
  end.
Proof.
  intros Ea K. induction vs as [|w vs IH]; intros v confs vo vi d cal c p G Cl Evo Evi Ed Ec Up.
  all: inversion G as [|? ? Gv G']; subst.
  - destruct (one_var E Ea alias a aliases confs [] v vo vi d cal c p) as (vi' & d' & cal' & c' & ks & p' & R & D & Ovi & Od & Ec' & Up'); auto; [left; auto|].
    rewrite app_nil_r in R.
    cbn [map concat]. rewrite app_nil_r. unfold var_args. cbn [tl].
    pose proof (setup_var E al v [] (add_all (q_vopts v) vo) vi' d' cal' c' ks p' alias a aliases confs Ea K (proj1 Gv)) as X.
    destruct Gv as (Pn & Fv & Gi & _). destruct X as [[I H]|[(N & cf & Dv & By & H)|(N & Fn & By & H)]]; auto.
    { destruct (q_in v) as [[n o]|]; auto. destruct Gi as [[Nn _] _]. auto. }
    { apply add_all_options; auto. }
    + eapply (run_reach _ _ _ 2) in R; cycle 1. { rewrite run_S by discriminate. unfold step. cbn [s_state s_name]. rewrite (proper_nonempty _ Pn), H. reflexivity. }
      destruct R as [n R]. exists n. eexists. split; [exact R|]. cbn. exists []. rewrite app_nil_r. split; auto. apply D_again; auto. constructor.
    + eapply (run_reach _ _ _ 2) in R; cycle 1. { rewrite run_S by discriminate. unfold step. cbn [s_state s_name]. rewrite (proper_nonempty _ Pn), H. reflexivity. }
      destruct R as [n R]. exists n. eexists. split; [exact R|]. cbn. exists [cf]. split; auto. apply (D_new E al _ v [] cf (Some [])); auto. constructor.
    + eapply (run_reach _ _ _ 2) in R; cycle 1. { rewrite run_S by discriminate. unfold step. cbn [s_state s_name]. rewrite (proper_nonempty _ Pn), H. reflexivity. }
      destruct R as [n R]. exists n. eexists. split; [exact R|]. cbn. apply D_missing; auto.
  - cbn [removelast] in Cl. inversion Cl as [|? ? Clv Cl']; subst.
    set (tail := concat (map var_args (w :: vs))).
    destruct (one_var E Ea alias a aliases confs tail v vo vi d cal c p) as (vi' & d' & cal' & c' & ks & p' & R & D & Ovi & Od & Ec' & Up'); auto; [apply starts_vars|].
    assert (Et : tl (concat (map var_args (v :: w :: vs))) = q_name v :: q_vopts v ++ part "-vi" (q_in v) ++ part "-d" (q_down v) ++ concat (map cal_args (q_cals v)) ++ tail).
    { change (concat (map var_args (v :: w :: vs))) with (var_args v ++ tail). unfold var_args. cbn [app tl]. rewrite <- !app_assoc. reflexivity. }
    rewrite Et. clear Et.
    pose proof (setup_var E al v tail (add_all (q_vopts v) vo) vi' d' cal' c' ks p' alias a aliases confs Ea K (proj1 Gv)) as X.
    assert (Htail : tail = txt "-v" :: tl tail) by reflexivity.
    destruct Gv as (Pn & Fv & Gi & _). destruct X as [[I H]|[(N & cf & Dv & By & H)|(N & Fn & By & H)]]; auto.
    { destruct (q_in v) as [[n o]|]; auto. destruct Gi as [[Nn _] _]. auto. }
    { apply add_all_options; auto. }
    + destruct (IH w confs (clear (add_all (q_vopts v) vo)) (clear vi') (clear d') cal' c' p') as (n & r & Hr & Hd); auto.
      assert (R' : reach E (St tail NEWVAR (q_name v) (match q_in v with Some (n, _) => n | None => [] end) (add_all (q_vopts v) vo) vi' (down_name v) d' cal' c' ks [] p' alias a aliases confs)
        (St (tl tail) VAR [] [] (clear (add_all (q_vopts v) vo)) (clear vi') default_downscaler (clear d') cal' c' [] [] p' alias a aliases confs)).
      { eapply reach_step; [discriminate| |apply reach_refl]. unfold step. cbn [s_state s_name].
        rewrite (proper_nonempty _ Pn), H. cbn [bind]. rewrite Htail at 1. reflexivity. }
      destruct (run_reach _ _ _ _ _ (reach_trans _ _ _ _ R R') Hr) as (n' & Hr'). exists n', r. split; [exact Hr'|].
      destruct r as [s'| | |]; try easy; [destruct Hd as (l & Hl & Hd); exists l; split; auto|]; apply D_again; auto.
    + destruct (IH w (confs ++ [cf]) (clear (add_all (q_vopts v) vo)) (clear vi') (clear d') cal' c' p') as (n & r & Hr & Hd); auto.
      assert (R' : reach E (St tail NEWVAR (q_name v) (match q_in v with Some (n, _) => n | None => [] end) (add_all (q_vopts v) vo) vi' (down_name v) d' cal' c' ks [] p' alias a aliases confs)
        (St (tl tail) VAR [] [] (clear (add_all (q_vopts v) vo)) (clear vi') default_downscaler (clear d') cal' c' [] [] p' alias a aliases (confs ++ [cf]))).
      { eapply reach_step; [discriminate| |apply reach_refl]. unfold step. cbn [s_state s_name].
        rewrite (proper_nonempty _ Pn), H. cbn [bind]. rewrite Htail at 1. reflexivity. }
      destruct (run_reach _ _ _ _ _ (reach_trans _ _ _ _ R R') Hr) as (n' & Hr'). exists n', r. split; [exact Hr'|].
      assert (En : map c_name (confs ++ [cf]) = map c_name confs ++ [q_name v]) by (rewrite map_app; cbn; destruct Dv as [-> _]; auto). rewrite En in Hd.
      destruct r as [s'| | |]; try easy; [destruct Hd as (l & Hl & Hd); exists (cf :: l); split; [rewrite Hl, <- app_assoc; auto|apply (D_new E al _ v _ cf (Some l)); auto]|].
      apply (D_new E al _ v _ cf None); auto.
    + eapply (run_reach _ _ _ 2) in R; cycle 1. { rewrite run_S by discriminate. unfold step. cbn [s_state s_name]. rewrite (proper_nonempty _ Pn), H. reflexivity. }
      destruct R as [n R]. exists n. eexists. split; [exact R|]. cbn. apply D_missing; auto.
Qed.

Lemma opts_a E tail name iname v vi down d cal c cals par p alias aliases confs : starts ["-v"; "-vi"]%string tail -> forall args a, Forall plain args ->
  reach E (St (args ++ tail) VARALIASOPT name iname v vi down d cal c cals par p alias a aliases confs)
    (St tail NEWVARALIAS name iname v vi down d cal c cals par p alias (add_all args a) aliases confs).
Proof.
  intros T. induction args as [|x args IH]; intros a F.
  - cbn [app add_all fold_left]. split_starts T; one; apply reach_refl.
  - inversion F; subst. eapply reach_trans; [|apply IH; auto]. destruct (plain_eqs x) as (E1 & E2 & E3 & E4 & E5); auto.
    eapply reach_step; [discriminate| |apply reach_refl]. cbn - [str_eqb txt add_options]. unfold is, arg. cbn - [str_eqb txt add_options]. rewrite E3, E4. reflexivity.
Qed.
Theorem c193 E al vs : accepts E -> (al = [] \/ exists x args, al = [(x, args)] /\ proper_name x /\ Forall plain args /\ exists n, given args (txt "name") n) ->
  vs <> [] -> Forall good_var vs -> Forall closed_input (removelast vs) ->
  exists n r, run E n (start (request_args al vs)) = Some r /\
    match r with Ok s => done E al [] vs (Some (s_confs s)) | Abort => done E al [] vs None | _ => False end.
Proof.
  intros Ea Hal Nv G Cl. destruct vs as [|v vs]; [easy|]. unfold request_args, start.
  assert (Ht : concat (map var_args (v :: vs)) = txt "-v" :: tl (concat (map var_args (v :: vs)))) by reflexivity.
  destruct Hal as [-> |(x & args & -> & Px & Fa & n0 & Gn)].
  - cbn [map concat app]. destruct (all_vars E [] [] no_options [] Ea (Forall2_nil _) vs v [] no_options no_options no_options [] no_options no_options G Cl) as (n & r & R & H); auto; try constructor.
    assert (R' : reach E (St (concat (map var_args (v :: vs))) START [] [] no_options no_options default_downscaler no_options [] no_options [] [] no_options [] no_options [] [])
      (St (tl (concat (map var_args (v :: vs)))) VAR [] [] no_options no_options default_downscaler no_options [] no_options [] [] no_options [] no_options [] [])).
    { rewrite Ht at 1. one. apply reach_refl. }
    destruct (run_reach _ _ _ _ _ R' R) as (n' & R2). exists n', r. split; [exact R2|]. destruct r as [s| | |]; auto. destruct H as (l & -> & H). auto.
  - cbn [map concat fst snd]. rewrite app_nil_r. set (tail := concat (map var_args (v :: vs))) in *.
    assert (Hv : has_value (txt "name") (add_all args no_options) = true).
    { unfold has_value. assert (Hh : holds (add_all args no_options) (txt "name") n0) by (apply add_all_holds; auto; constructor).
      apply assoc_In in Hh; [|apply add_all_uniq; constructor]. rewrite Hh. auto. }
    assert (K : knows [(x, args)] [(x, add_all args no_options)]) by (constructor; [split; auto; apply add_all_options; auto|constructor]).
    destruct (all_vars E [(x, args)] [] (clear (add_all args no_options)) [(x, add_all args no_options)] Ea K vs v [] no_options no_options no_options [] no_options no_options G Cl) as (n & r & R & H); auto; try constructor.
    assert (R' : reach E (St ((txt "-va" :: x :: args) ++ tail) START [] [] no_options no_options default_downscaler no_options [] no_options [] [] no_options [] no_options [] [])
      (St (tl tail) VAR [] [] no_options no_options default_downscaler no_options [] no_options [] [] no_options [] (clear (add_all args no_options)) [(x, add_all args no_options)] [])).
    { cbn [app]. apply (reach_step E _ (St (x :: args ++ tail) VARALIAS [] [] no_options no_options default_downscaler no_options [] no_options [] [] no_options [] no_options [] [])); [discriminate|reflexivity|].
      destruct (proper_eqs _ Px) as (ch & tn & -> & Ed).
      apply (reach_step E _ (St (args ++ tail) VARALIASOPT [] [] no_options no_options default_downscaler no_options [] no_options [] [] no_options (ch :: tn) no_options [] []));
        [discriminate|unfold step, dash, arg; cbn [s_state s_rest hd at_end]; rewrite Ed; reflexivity|].
      eapply reach_trans; [apply (opts_a E tail); auto; right; exists "-v"%string; eexists; split; [cbn; auto|exact Ht]|].
      eapply reach_step; [discriminate| |apply reach_refl]. unfold step, new_alias. cbn [s_state s_alias s_aliases s_a find_alias List.find]. unfold find_alias. cbn [List.find]. rewrite Hv. cbn [bind]. rewrite Ht at 1. reflexivity. }
    destruct (run_reach _ _ _ _ _ R' R) as (n' & R2). exists n', r. split; [exact R2|]. destruct r as [s| | |]; auto. destruct H as (l & -> & H). auto.
Qed.

Lemma vars_prefix E al alias a aliases t : accepts E -> knows al aliases -> forall vs confs vo vi d cal c p,
  Forall good_var vs -> Forall closed_input vs -> o_pairs vo = [] -> o_pairs vi = [] -> o_pairs d = [] -> o_pairs c = [] -> uniq (o_pairs p) ->
  let T := concat (map var_args vs) ++ txt "-v" :: t in
  (exists n, run E n (St (tl T) VAR [] [] vo vi default_downscaler d cal c [] [] p alias a aliases confs) = Some Abort) \/
  exists vo' vi' d' cal' c' p' confs', reach E (St (tl T) VAR [] [] vo vi default_downscaler d cal c [] [] p alias a aliases confs)
    (St t VAR [] [] vo' vi' default_downscaler d' cal' c' [] [] p' alias a aliases confs').
Proof.
  intros Ea K. induction vs as [|v vs IH]; intros confs vo vi d cal c p G Cl Evo Evi Ed Ec Up T.
  - right. exists vo, vi, d, cal, c, p, confs. apply reach_refl.
  - inversion G as [|? ? Gv G']; subst. inversion Cl as [|? ? Clv Cl']; subst.
    set (tail := concat (map var_args vs) ++ txt "-v" :: t).
    assert (Stl : starts ["-v"]%string tail).
    { right. unfold tail. destruct vs as [|w vs]; [exists "-v"%string, t; split; [left; auto|reflexivity]|].
      exists "-v"%string. eexists. split; [left; auto|]. cbn [map concat]. unfold var_args. cbn [app]. reflexivity. }
    destruct (one_var E Ea alias a aliases confs tail v vo vi d cal c p) as (vi' & d' & cal' & c' & ks & p' & R & D & Ovi & Od & Ec' & Up'); auto.
    assert (Et : tl T = q_name v :: q_vopts v ++ part "-vi" (q_in v) ++ part "-d" (q_down v) ++ concat (map cal_args (q_cals v)) ++ tail).
    { unfold T, tail. cbn [map concat]. unfold var_args at 1. cbn [app tl]. rewrite <- !app_assoc. reflexivity. }
    rewrite Et. clear Et T.
    pose proof (setup_var E al v tail (add_all (q_vopts v) vo) vi' d' cal' c' ks p' alias a aliases confs Ea K (proj1 Gv)) as X.
    assert (Htail : tail = txt "-v" :: tl tail) by (destruct Stl as [e|(f & t' & [<-|[]] & e)]; [unfold tail in e; destruct (concat (map var_args vs)); discriminate|rewrite e; reflexivity]).
    destruct Gv as (Pn & Fv & Gi & _).
    assert (Z : new_variable E (St tail NEWVAR (q_name v) (match q_in v with Some (n, _) => n | None => [] end) (add_all (q_vopts v) vo) vi' (down_name v) d' cal' c' ks [] p' alias a aliases confs) = Abort \/
      exists confs', new_variable E (St tail NEWVAR (q_name v) (match q_in v with Some (n, _) => n | None => [] end) (add_all (q_vopts v) vo) vi' (down_name v) d' cal' c' ks [] p' alias a aliases confs)
        = Ok (St tail NEWVAR [] [] (clear (add_all (q_vopts v) vo)) (clear vi') default_downscaler (clear d') cal' c' [] [] p' alias a aliases confs')).
    { destruct X as [[I H]|[(N & cf & Dv & By & H)|(N & Fn & By & H)]]; eauto.
      { destruct (q_in v) as [[n o]|]; auto. destruct Gi as [[Nn _] _]. auto. }
      { apply add_all_options; auto. } }
    clear X. destruct Z as [H|(confs' & H)].
    + left. eapply (run_reach _ _ _ 2) in R; cycle 1. { rewrite run_S by discriminate. unfold step. cbn [s_state s_name]. rewrite (proper_nonempty _ Pn), H. reflexivity. } exact R.
    + assert (R' : reach E (St tail NEWVAR (q_name v) (match q_in v with Some (n, _) => n | None => [] end) (add_all (q_vopts v) vo) vi' (down_name v) d' cal' c' ks [] p' alias a aliases confs)
        (St (tl tail) VAR [] [] (clear (add_all (q_vopts v) vo)) (clear vi') default_downscaler (clear d') cal' c' [] [] p' alias a aliases confs')).
      { eapply reach_step; [discriminate| |apply reach_refl]. unfold step. cbn [s_state s_name]. rewrite (proper_nonempty _ Pn), H. cbn [bind]. rewrite Htail. reflexivity. }
      destruct (IH confs' (clear (add_all (q_vopts v) vo)) (clear vi') (clear d') cal' c' p') as [(n & Hn)|(x1 & x2 & x3 & x4 & x5 & x6 & x7 & Hx)]; auto.
      * left. eapply run_reach; [exact (reach_trans _ _ _ _ R R')|exact Hn].
      * right. exists x1, x2, x3, x4, x5, x6, x7. eapply reach_trans; [exact R|]. eapply reach_trans; [exact R'|exact Hx].
Qed.
Lemma reach_error E s s' : reach E s s' -> s_state s' = ERROR -> exists n, run E n s = Some Abort.
Proof. intros R e. eapply (run_reach _ _ _ 1); [exact R|]. cbn. rewrite e. unfold step. rewrite e. reflexivity. Qed.
Lemma dashed_eqb x : dashed x -> match x with c :: _ => Ascii.eqb c "-"%char | [] => false end = true.
Proof. intros [t ->]. reflexivity. Qed.
Lemma opts_v_p E t name iname vi down d cal c cals par p alias a aliases confs : forall args v, Forall plain args ->
  reach E (St (args ++ txt "-p" :: t) VAROPT name iname v vi down d cal c cals par p alias a aliases confs)
    (St (txt "-p" :: t) ERROR name iname (add_all args v) vi down d cal c cals par p alias a aliases confs).
Proof.
  induction args as [|x args IH]; intros v F; [one; apply reach_refl|].
  inversion F; subst. eapply reach_trans; [|apply IH; auto]. destruct (plain_eqs x) as (E1 & E2 & E3 & E4 & E5); auto.
  eapply reach_step; [discriminate| |apply reach_refl]. cbn - [str_eqb txt add_options]. unfold is, arg. cbn - [str_eqb txt add_options]. rewrite E1, E2, E3, E4, E5. reflexivity.
Qed.
Lemma part_v_p E t name v vi down d cal c cals par p alias a aliases confs args : proper_name name -> Forall plain args ->
  reach E (St (name :: args ++ txt "-p" :: t) VAR [] [] v vi down d cal c cals par p alias a aliases confs)
    (St (txt "-p" :: t) ERROR name [] (add_all args v) vi down d cal c cals par p alias a aliases confs).
Proof.
  intros Pn F. destruct (proper_eqs _ Pn) as (ch & tn & -> & Ed). destruct args as [|x args].
  - cbn [app add_all fold_left]. (eapply reach_step; [discriminate|unfold step, dash, arg; cbn [s_state s_rest hd at_end]; rewrite Ed; reflexivity|]; apply reach_refl).
  - inversion F; subst. destruct (plain_eqs x) as (E1 & E2 & E3 & E4 & E5); auto.
    eapply reach_step; [discriminate| |apply opts_v_p; eauto].
    unfold step, dash, is, arg; cbn - [str_eqb txt Ascii.eqb]; rewrite Ed, E1, E2, E3, E4, E5. reflexivity.
Qed.
Lemma broken_aborts E t vo vi d cal c p alias a aliases confs : broken t ->
  exists n, run E n (St t VAR [] [] vo vi default_downscaler d cal c [] [] p alias a aliases confs) = Some Abort.
Proof.
  intros B. destruct B as [|x t D|name opts t P F|name opts f P F I|name opts x t P F D|name opts cl copts P F Fc].
  - exists 2%nat. reflexivity.
  - eapply reach_error; [eapply reach_step; [discriminate| |apply reach_refl]; unfold step, dash, arg; cbn [s_state s_rest at_end hd]; rewrite (dashed_eqb _ D); reflexivity|reflexivity].
  - eapply reach_error; [apply part_v_p; auto|reflexivity].
  - assert (S : starts ["-v"; "-vi"; "-d"; "-c"]%string [f]).
    { right. destruct I as [<-|[<-|[<-|[]]]]; eexists _, []; (split; [|reflexivity]); cbn; auto. }
    pose proof (part_v E alias a aliases confs [f] name vo vi default_downscaler d cal c [] [] p opts S P F) as R.
    destruct I as [<-|[<-|[<-|[]]]]; (eapply reach_error; [eapply reach_trans; [exact R|]; one; apply reach_refl|reflexivity]).
  - assert (S : starts ["-v"; "-vi"; "-d"; "-c"]%string (txt "-vi" :: x :: t)) by (right; exists "-vi"%string; eexists; split; [cbn; auto|reflexivity]).
    pose proof (part_v E alias a aliases confs (txt "-vi" :: x :: t) name vo vi default_downscaler d cal c [] [] p opts S P F) as R.
    change (dispatch (txt "-vi" :: x :: t)) with (VARI, x :: t) in R. cbn [fst snd] in R.
    eapply reach_error; [eapply reach_trans; [exact R|]; eapply reach_step; [discriminate| |apply reach_refl]|].
    + unfold step, dash, arg. cbn [s_state s_rest at_end hd]. rewrite (dashed_eqb _ D). reflexivity.
    + reflexivity.
  - set (T := txt "-c" :: cl :: copts ++ [txt "-p"]).
    assert (S : starts ["-v"; "-vi"; "-d"; "-c"]%string T) by (right; exists "-c"%string; eexists; split; [cbn; auto|reflexivity]).
    pose proof (part_v E alias a aliases confs T name vo vi default_downscaler d cal c [] [] p opts S P F) as R.
    change (dispatch T) with (CAL, cl :: copts ++ [txt "-p"]) in R. cbn [fst snd] in R.
    assert (S' : starts ["-v"; "-c"; "-p"]%string [txt "-p"]) by (right; exists "-p"%string; eexists; split; [cbn; auto|reflexivity]).
    pose proof (part_c E alias a aliases confs [txt "-p"] name [] (add_all opts vo) vi default_downscaler d cal cl c [] [] p _ copts S' eq_refl Fc) as R2.
    eapply reach_error; [eapply reach_trans; [exact R|]; eapply reach_trans; [exact R2|]|].
    { apply (reach_step E _ (St [] PARCAL name [] (add_all opts vo) vi default_downscaler d cl (add_all copts c) [] (txt "-p") p alias a aliases confs)); [discriminate|reflexivity|].
      one. apply reach_refl. }
    reflexivity.
Qed.
Theorem c194 E vs t : accepts E -> Forall good_var vs -> Forall closed_input vs -> broken t ->
  exists n, run E n (start (concat (map var_args vs) ++ txt "-v" :: t)) = Some Abort.
Proof.
  intros Ea G Cl B. set (T := concat (map var_args vs) ++ txt "-v" :: t).
  assert (Ht : T = txt "-v" :: tl T) by (unfold T; destruct vs; reflexivity).
  assert (R : reach E (start T) (St (tl T) VAR [] [] no_options no_options default_downscaler no_options [] no_options [] [] no_options [] no_options [] [])).
  { unfold start. rewrite Ht at 1. one. apply reach_refl. }
  destruct (vars_prefix E [] [] no_options [] t Ea (Forall2_nil _) vs [] no_options no_options no_options [] no_options no_options) as [(n & H)|(x1 & x2 & x3 & x4 & x5 & x6 & x7 & H)]; auto; try constructor.
  - eapply run_reach; [exact R|exact H].
  - destruct (broken_aborts E t x1 x2 x3 x4 x5 x6 [] no_options [] x7 B) as (n & Hn). eapply run_reach; [eapply reach_trans; [exact R|exact H]|exact Hn].
Qed.
Theorem c194_start E args : match args with [] => True | x :: _ => x <> txt "-v" /\ x <> txt "-vi" /\ x <> txt "-va" end -> exists n, run E n (start args) = Some Abort.
Proof.
  intros H. exists 2%nat. unfold start. rewrite run_S by discriminate. unfold step. cbn [s_state]. destruct args as [|x t]; [reflexivity|]. destruct H as (H1 & H2 & H3).
  unfold at_end, is, arg. cbn [s_rest hd]. destruct (str_eqb_spec x (txt "-v")); [easy|]. destruct (str_eqb_spec x (txt "-vi")); [easy|]. destruct (str_eqb_spec x (txt "-va")); [easy|]. reflexivity.
Qed.
Theorem c194_input_only E n opts : proper_name n -> Forall plain opts -> exists k, run E k (start (txt "-vi" :: n :: opts)) = Some Abort.
Proof.
  intros Pn F. destruct (proper_eqs _ Pn) as (ch & tn & -> & Ed).
  assert (R : reach E (start (txt "-vi" :: (ch :: tn) :: opts))
     (St [] NEWVAR [] (ch :: tn) no_options (add_all opts no_options) default_downscaler no_options [] no_options [] [] no_options [] no_options [] [])).
  { apply (reach_step E _ (St ((ch :: tn) :: opts) VARI [] [] no_options no_options default_downscaler no_options [] no_options [] [] no_options [] no_options [] [])); [discriminate|reflexivity|].
    destruct opts as [|x opts].
    - eapply reach_step; [discriminate|unfold step, dash, arg; cbn [s_state s_rest hd at_end]; rewrite Ed; reflexivity|]; apply reach_refl.
    - inversion F; subst. destruct (plain_eqs x) as (E1 & E2 & E3 & E4 & E5); auto.
      eapply reach_step; [discriminate| |].
      + unfold step, dash, is, arg; cbn - [str_eqb txt Ascii.eqb]; rewrite Ed, E1, E2, E3, E4, E5. reflexivity.
      + pose proof (opts_vi E [] no_options [] [] [] [] (ch :: tn) no_options default_downscaler no_options [] no_options [] [] no_options (or_introl eq_refl) (x :: opts) no_options F) as R.
        rewrite app_nil_r in R. exact R. }
  eapply reach_error; [eapply reach_trans; [exact R|]; one; apply reach_refl|reflexivity].
Qed.

(** ** Parameter files *)
Theorem c195_partial E name opts cal copts f popts tail : proper_name name -> Forall plain opts -> Forall plain copts -> plain f -> f <> [] -> Forall plain popts ->
  (tail = [] \/ exists t, tail = txt "-v" :: t \/ tail = txt "-c" :: t) -> (forall ty, ~ given (f :: popts) (txt "type") ty) ->
  exists n, run E n (start (txt "-v" :: name :: opts ++ txt "-c" :: cal :: copts ++ txt "-p" :: f :: popts ++ tail)) = Some Abort.
Proof.
  intros P F Fc Pf Nf Fp Ht Ng. assert (Ef : empty f = false) by (destruct f; easy).
  assert (S3 : starts ["-v"; "-c"]%string tail).
  { destruct Ht as [-> |(t & [-> | ->])]; [left; auto|right; exists "-v"%string, t; split; [cbn; auto|reflexivity]|right; exists "-c"%string, t; split; [cbn; auto|reflexivity]]. }
  set (T2 := txt "-p" :: f :: popts ++ tail).
  assert (S2 : starts ["-v"; "-c"; "-p"]%string T2) by (right; exists "-p"%string; eexists; split; [cbn; auto|reflexivity]).
  set (T1 := txt "-c" :: cal :: copts ++ T2).
  assert (S1 : starts ["-v"; "-vi"; "-d"; "-c"]%string T1) by (right; exists "-c"%string; eexists; split; [cbn; auto|reflexivity]).
  pose proof (part_v E [] no_options [] [] T1 name no_options no_options default_downscaler no_options [] no_options [] [] no_options opts S1 P F) as R1.
  change (dispatch T1) with (CAL, cal :: copts ++ T2) in R1. cbn [fst snd] in R1.
  pose proof (part_c E [] no_options [] [] T2 name [] (add_all opts no_options) no_options default_downscaler no_options [] cal no_options [] [] no_options _ copts S2 eq_refl Fc) as R2.
  pose proof (part_p E [] no_options [] [] tail name [] (add_all opts no_options) no_options default_downscaler no_options cal (add_all copts no_options) [] [] no_options f popts S3 Pf Fp) as R3.
  assert (Ea : assoc (o_pairs (add_all (f :: popts) no_options)) (txt "type") = None).
  { destruct (assoc (o_pairs (add_all (f :: popts) no_options)) (txt "type")) as [ty|] eqn:Ea; auto.
    exfalso. apply assoc_In in Ea; [|apply add_all_uniq; constructor]. apply (Ng ty). apply (add_all_options (f :: popts) no_options); auto. }
  eapply reach_error; [eapply reach_step; [discriminate|reflexivity|]; eapply reach_trans; [exact R1|]; eapply reach_trans; [exact R2|]; eapply reach_trans; [exact R3|]|].
  { eapply reach_step; [discriminate| |apply reach_refl]. unfold step. cbn [s_state]. unfold open_parameters. cbn [s_par s_p]. rewrite Ef.
    unfold get_value. rewrite Ea. reflexivity. }
  reflexivity.
Qed.
(** ** Where it goes wrong *)
Definition everything : env := {| e_has := fun _ => true; e_same := false; e_cal := fun _ _ _ _ => Ok tt; e_down := fun _ _ _ _ _ _ => Ok tt; e_par := fun _ _ => Ok true |}.
Lemma everything_accepts : accepts everything.
Proof. repeat split. Qed.
Definition one_cal_request (c : string) (o : list string) (p : option (str * list str)) : cal_request := {| q_cal := txt c; q_copts := map txt o; q_par := p |}.
Definition simple_var (n : string) (o : list string) : var_request := {| q_name := txt n; q_vopts := map txt o; q_in := None; q_down := None; q_cals := [] |}.
Lemma plain_check a : forallb (fun f => negb (str_eqb a f)) flags = true -> plain a.
Proof. intros F I. rewrite forallb_forall in F. specialize (F a I). rewrite str_eqb_refl in F. discriminate. Qed.
Lemma plain_all l : forallb (fun a => forallb (fun f => negb (str_eqb a f)) flags) l = true -> Forall plain l.
Proof. intros F. apply Forall_forall. intros a I. rewrite forallb_forall in F. apply plain_check; auto. Qed.
Lemma proper_check n : match n with [] => false | c :: _ => negb (Ascii.eqb c "-"%char) end = true -> proper_name n.
Proof. intros H. split; [intros ->; discriminate|]. intros [t ->]. discriminate. Qed.
Lemma given_check args k v : assoc (o_pairs (add_all args no_options)) k = Some v -> given args k v.
Proof. intros H. apply (add_all_options args no_options); auto. apply assoc_In; auto. apply add_all_uniq. constructor. Qed.
(** -v a -vi b x=1 -v c *)
Definition lost : list var_request := [{| q_name := txt "a"; q_vopts := []; q_in := Some (txt "b", [txt "x=1"]); q_down := None; q_cals := [] |}; simple_var "c" []].
Lemma lost_good : Forall good_var lost.
Proof. repeat constructor; cbn; try (apply proper_check; reflexivity); try (apply plain_check; reflexivity); discriminate. Qed.
Theorem c193_refuted : exists E vs n s v, accepts E /\ Forall good_var vs /\ run E n (start (request_args [] vs)) = Some (Ok s) /\ In v vs /\ ~ In (q_name v) (map c_name (s_confs s)).
Proof.
  exists everything, lost, 30%nat. eexists. eexists. split; [apply everything_accepts|]. split; [apply lost_good|]. split; [vm_compute; reflexivity|].
  split; [left; reflexivity|]. cbn. intros [e|[]]. discriminate.
Qed.
(** -v a -c x -p f type=text -c y -p g *)
Definition leaking : var_request :=
  {| q_name := txt "a"; q_vopts := []; q_in := None; q_down := None; q_cals := [one_cal_request "x" [] (Some (txt "f", [txt "type=text"])); one_cal_request "y" [] (Some (txt "g", []))] |}.
Theorem c195_refuted : exists E v f n s c k1 o po, accepts E /\ nth_error (q_cals v) 1 = Some {| q_cal := txt "y"; q_copts := []; q_par := Some (f, []) |} /\
  run E n (start (var_args v)) = Some (Ok s) /\ s_confs s = [c] /\ c_cals c = [k1; (txt "y", o, Some (txt "text", po))] /\ holds po (txt "type") (txt "text").
Proof.
  exists everything, leaking, (txt "g"), 30%nat. eexists. eexists. eexists. eexists. eexists. split; [apply everything_accepts|]. split; [reflexivity|]. split; [vm_compute; reflexivity|].
  split; [reflexivity|]. split; [reflexivity|]. right. left. reflexivity.
Qed.
(** -v a -d x -p f type=text [-c y] *)
Theorem c195_downscaler_refuted : exists E args, accepts E /\ args = map txt ["-v"; "a"; "-d"; "x"; "-p"; "f"; "type=text"]%string /\
  (exists n s n' s', run E n (start args) = Some (Ok s) /\ run E n' (start (firstn 4 args)) = Some (Ok s') /\ s_confs s = s_confs s') /\
  (exists n s c o po, run E n (start (args ++ [txt "-c"; txt "y"])) = Some (Ok s) /\ s_confs s = [c] /\ c_cals c = [(txt "y", o, Some (txt "text", po))] /\ holds po (txt "file") (txt "-p")).
Proof.
  exists everything. eexists. split; [apply everything_accepts|]. split; [reflexivity|]. split.
  - exists 30%nat. eexists. exists 30%nat. eexists. split; [vm_compute; reflexivity|]. split; [vm_compute; reflexivity|]. reflexivity.
  - exists 30%nat. eexists. eexists. eexists. eexists. split; [vm_compute; reflexivity|]. split; [reflexivity|]. split; [reflexivity|]. right. right. left. reflexivity.
Qed.

(** ** Examples *)
(** -v T units=K -vi b x=1 y -d bilinear -c smooth n=3 -c regression -p f type=text, -v U *)
Definition asked : list var_request :=
  [{| q_name := txt "T"; q_vopts := [txt "units=K"]; q_in := Some (txt "b", [txt "x=1 y"]); q_down := Some (txt "bilinear", []);
      q_cals := [one_cal_request "smooth" ["n=3"%string] None; one_cal_request "regression" [] (Some (txt "f", [txt "type=text"]))] |}; simple_var "U" []; simple_var "T" ["units=C"%string]].
Lemma asked_good : Forall good_var asked /\ Forall closed_input (removelast asked) /\ Forall closed_input asked.
Proof.
  split; [|split; repeat constructor; discriminate].
  repeat constructor; cbn; try (apply proper_check; reflexivity); try (apply plain_check; reflexivity); try discriminate; try (intros [t e]; discriminate).
  exists (txt "text"). apply given_check. reflexivity.
Qed.
Lemma no_type : forall ty, ~ given [txt "f"; txt "x=1"] (txt "type") ty.
Proof.
  intros ty G. apply (add_all_options [txt "f"; txt "x=1"] no_options) in G; auto. vm_compute in G. destruct G as [e|[e|[]]]; discriminate.
Qed.
Lemma assign_all l : forallb (fun a => has_char a "="%char) l = true -> Forall assignment l.
Proof. intros F. apply Forall_forall. intros a I. rewrite forallb_forall in F. apply assignment_iff; auto. Qed.
Lemma not_assign a : has_char a "="%char = false -> ~ assignment a.
Proof. intros H A. apply assignment_iff in A. congruence. Qed.
