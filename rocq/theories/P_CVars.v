From Coq Require Import Ascii String.
From Verif Require Import Base ListLib M_COpt M_CUtil M_CCal M_CDown M_CFile S_CUtil S_CCal S_CFile P_COpt P_CCal P_CFile P_CFile2 M_CNc M_CPar M_CParNc M_CNcOpen M_CNorcom M_CVars S_CVars P_CNcOpen P_CNcOpen2.
Local Open Scope Z_scope.

Definition dv (v : variable) (l : list variable) : list variable := if existsb (fun w => str_eqb (v_name w) (v_name v)) l then l else l ++ [v].
Lemma define_vars v F : f_vars (define v F) = dv v (f_vars F).
Proof. unfold define, dv. destruct (existsb _ _); reflexivity. Qed.
Lemma dv_in v l : existsb (fun w => str_eqb (v_name w) (v_name v)) (dv v l) = true.
Proof. unfold dv. destruct (existsb _ l) eqn:E; [exact E|]. rewrite existsb_app, E. cbn [existsb orb]. destruct (str_eqb_spec (v_name v) (v_name v)); [reflexivity|congruence]. Qed.
Lemma dv_dv v l : dv v (dv v l) = dv v l.
Proof. unfold dv at 1. rewrite dv_in. reflexivity. Qed.
Lemma add_vars F p v t F' : add_field F p v t = Ok F' -> f_vars F' = dv v (f_vars F).
Proof. unfold add_field. intros E. apply bind_Ok in E as (s & _ & E). injection E as <-. cbn [with_cache f_vars]. apply (define_vars v (with_cache F _ _)). Qed.
Lemma fold_vars v l : forall F F', foldM (fun F t => f <- empty_field (f_dims F) ;; let '(F, p) := create F f in add_field F (Some p) v t) F l = Ok F' -> (l = [] /\ F' = F) \/ f_vars F' = dv v (f_vars F).
Proof.
  induction l as [|t l IH]; intros F F' E; cbn [foldM] in E; [injection E as <-; auto|]. right. apply bind_Ok in E as (G & E1 & E). apply bind_Ok in E1 as (f & _ & E1). unfold create in E1. apply add_vars in E1. cbn [with_cache f_vars] in E1.
  destruct (IH _ _ E) as [[_ ->]|H]; [exact E1|rewrite H, E1; apply dv_dv].
Qed.
Lemma empty_vars F v F' : add_empty F v = Ok F' -> f_vars F' = f_vars F \/ f_vars F' = dv v (f_vars F).
Proof. unfold add_empty. intros E. apply fold_vars in E. destruct E as [[_ ->]|E]; auto. Qed.
Lemma get_vars K F v t skip p F' : get_field K F v t skip = Ok (p, F') -> f_vars F' = dv v (f_vars F).
Proof.
  unfold get_field. intros E. apply bind_Ok in E as ([G needs] & E1 & E). apply bind_Ok in E as (H & E2 & E).
  assert (X : f_vars F' = dv v (f_vars H)). { destruct (find_name (f_cache H) (v_name v)) as [s|]; [|discriminate]. destruct (_ || _); [discriminate|]. apply bind_Ok in E as (q & _ & E). injection E as _ <-. apply define_vars. }
  assert (Y : f_vars G = f_vars F). { destruct (find_name (f_cache F) (v_name v)) as [s|]; [destruct (_ || _); [discriminate|]; apply bind_Ok in E1 as (q & _ & E1); injection E1 as <- _; reflexivity|]. destruct (_ <=? _); [discriminate|]. injection E1 as <- _. reflexivity. }
  assert (W : f_vars H = f_vars G \/ f_vars H = dv v (f_vars G)). { destruct needs; [|injection E2 as <-; auto]. destruct (_ && _); [|apply empty_vars, E2]. apply bind_Ok in E2 as ([h q] & _ & E2). apply add_vars in E2. right. exact E2. }
  rewrite X. destruct W as [->| ->]; rewrite Y; [reflexivity|apply dv_dv].
Qed.
Definition nm (n : str) : variable -> bool := fun w => str_eqb (v_name w) n.
Lemma find_dv v l n : List.find (nm n) (dv v l) = match List.find (nm n) l with Some w => Some w | None => if str_eqb (v_name v) n then Some v else None end.
Proof.
  unfold dv. destruct (existsb _ l) eqn:E.
  - destruct (List.find (nm n) l) eqn:Q; [reflexivity|]. destruct (str_eqb_spec (v_name v) n) as [<-|N]; [|reflexivity]. exfalso. apply existsb_exists in E as (w & I & W). pose proof (find_none _ _ Q w I) as B. unfold nm in B. congruence.
  - induction l as [|a l IH]; cbn [List.find app]; [unfold nm; reflexivity|]. cbn [existsb] in E. apply orb_false_iff in E as [_ E]. destruct (nm n a); [reflexivity|apply IH, E].
Qed.
Lemma step_vars K F o F' : do1 K F o = Ok F' -> f_vars F' = f_vars F \/ exists v, f_vars F' = dv v (f_vars F) /\ (may_use F o v \/ find_variable F (v_name v) = Some v).
Proof.
  destruct o as [v t skip|n t|f v t|v| |p f]; cbn [do1 may_use]; intros E.
  - apply bind_Ok in E as ([p G] & E1 & E). injection E as <-. right. exists v. split; [apply (get_vars _ _ _ _ _ _ _ E1)|auto].
  - apply bind_Ok in E as ([p G] & E1 & E). injection E as <-. unfold get_named in E1. right. exists (resolve F n). split; [apply (get_vars _ _ _ _ _ _ _ E1)|]. unfold resolve, find_variable. destruct (List.find _ (f_vars F)) as [w|] eqn:Q.
    + right. pose proof (find_some _ _ Q) as [_ B]. destruct (str_eqb_spec (v_name w) n) as [->|]; [exact Q|discriminate].
    + left. split; [reflexivity|]. destruct (find_name (f_alias F) n); auto.
  - unfold create in E. apply add_vars in E. right. exists v. split; [exact E|auto].
  - unfold init_new in E. destruct (has_variable K F v); [injection E as <-; auto|]. apply empty_vars in E. destruct E as [E|E]; [auto|]. right. exists v. auto.
  - injection E as <-. left. reflexivity.
  - unfold assign in E. apply bind_Ok in E as (h & _ & E). injection E as <-. left. reflexivity.
Qed.
Lemma step_keeps K F o F' n w : do1 K F o = Ok F' -> find_variable F n = Some w -> find_variable F' n = Some w.
Proof. intros E Q. unfold find_variable in *. destruct (step_vars K F o F' E) as [->|(v & -> & _)]; [exact Q|]. rewrite (find_dv v _ n : List.find (fun w => str_eqb (v_name w) n) _ = _). unfold nm. rewrite Q. reflexivity. Qed.
Lemma step_uses K F o F' v : do1 K F o = Ok F' -> uses o v -> find_variable F' (v_name v) = match find_variable F (v_name v) with Some w => Some w | None => Some v end.
Proof.
  intros E U. assert (V : f_vars F' = dv v (f_vars F)). { destruct o as [w t skip|n t|f w t|w| |p f]; cbn [uses] in U; try contradiction; subst w; cbn [do1] in E; [apply bind_Ok in E as ([p G] & E1 & E); injection E as <-; apply (get_vars _ _ _ _ _ _ _ E1)|unfold create in E; apply add_vars in E; exact E]. }
  unfold find_variable. rewrite V. rewrite (find_dv v _ (v_name v) : List.find (fun w => str_eqb (v_name w) (v_name v)) _ = _). unfold nm. destruct (List.find _ _); [reflexivity|]. destruct (str_eqb_spec (v_name v) (v_name v)); [reflexivity|congruence].
Qed.
Lemma run_keeps K ops : forall F F' n w, run K F ops = Ok F' -> find_variable F n = Some w -> find_variable F' n = Some w.
Proof. induction ops as [|o ops IH]; intros F F' n w E Q; unfold run in E; cbn [foldM] in E; [injection E as <-; exact Q|]. apply bind_Ok in E as (G & E1 & E). apply (IH G F' n w E). apply (step_keeps K F o G n w E1 Q). Qed.
Lemma find_named F n w : find_variable F n = Some w -> v_name w = n.
Proof. intros Q. apply find_some in Q as [_ B]. destruct (str_eqb_spec (v_name w) n); [assumption|discriminate]. Qed.

Lemma c281 K F F' ops : run K F ops = Ok F' -> (forall n w, find_variable F n = Some w -> find_variable F' n = Some w) /\ forall o v, In o ops -> uses o v -> exists w, find_variable F' (v_name v) = Some w /\ same_name w v.
Proof.
  intros E. split; [intros n w; apply (run_keeps K ops F F' n w E)|]. revert F E. induction ops as [|a ops IH]; intros F E o v I U; [destruct I|]. unfold run in E; cbn [foldM] in E. apply bind_Ok in E as (G & E1 & E). destruct I as [->|I]; [|apply (IH G E o v I U)].
  pose proof (step_uses K F o G v E1 U) as S. destruct (find_variable F (v_name v)) as [w|] eqn:Q; (eexists; split; [apply (run_keeps K ops G F' _ _ E S)|]); [apply (find_named F), Q|reflexivity].
Qed.
Lemma c281_first K F o F' : do1 K F o = Ok F' -> (forall v, uses o v -> find_variable F (v_name v) = None -> find_variable F' (v_name v) = Some v) /\
  forall n w, find_variable F' n = Some w -> find_variable F n = None -> v_name w = n /\ may_use F o w.
Proof.
  intros E. split; [intros v U Q; rewrite (step_uses K F o F' v E U), Q; reflexivity|]. intros n w Q' Q. split; [apply (find_named F'), Q'|].
  destruct (step_vars K F o F' E) as [V|(v & V & M)]; unfold find_variable in Q'; rewrite V in Q'; [unfold find_variable in Q; congruence|]. rewrite (find_dv v _ n : List.find (fun w => str_eqb (v_name w) n) _ = _) in Q'. unfold find_variable in Q. unfold nm in Q'. rewrite Q in Q'.
  destruct (str_eqb_spec (v_name v) n) as [<-|]; [|discriminate]. injection Q' as <-. destruct M as [M|M]; [exact M|]. unfold find_variable in M. congruence.
Qed.
Lemma c281_by_name K F v t skip p F' : reached K F -> get_field K F v t skip = Ok (p, F') -> exists F'', get_named K F' (v_name v) t = Ok (p, F'').
Proof.
  intros RE E. pose proof (reached_inv _ _ RE) as IV. pose proof (get_inv _ _ _ _ _ _ _ IV E) as ((_ & _ & I') & T & C).
  assert (S : exists q, p = Some q /\ slot F' (v_name v) t = Some q). {
    destruct C as [(q & S & -> & ->)|[(_ & _ & h & q & _ & -> & _ & S)|(_ & _ & -> & fs & _ & _ & _ & S)]].
    - exists q. split; [reflexivity|]. rewrite define_slot. exact S.
    - exists q. split; [reflexivity|]. rewrite S, Z.eqb_refl. destruct (str_eqb_spec (v_name v) (v_name v)); [reflexivity|congruence].
    - eexists. split; [reflexivity|]. rewrite S. destruct (str_eqb_spec (v_name v) (v_name v)); [|congruence]. unfold in_time in T. destruct (Z.leb_spec 0 t); [|lia]. destruct (Z.ltb_spec t (d_t (f_dims F))); [reflexivity|lia]. }
  destruct S as (q & -> & S). assert (D : do1 K F (Get v t skip) = Ok F') by (cbn [do1]; rewrite E; reflexivity). pose proof (step_uses K F _ F' v D eq_refl) as U.
  assert (W : exists w, find_variable F' (v_name v) = Some w /\ v_name w = v_name v). { destruct (find_variable F (v_name v)) as [w|] eqn:Q; [exists w; split; [exact U|apply (find_named F), Q]|exists v; auto]. }
  destruct W as (w & Q & N). unfold get_named, resolve. unfold find_variable in Q. rewrite Q. rewrite <- N in S. eexists. apply (get_cached K F' w t false q I' S).
Qed.

(** ** the type of a file *)
Lemma c282 (A B : Type) (point : res A) (text : res B) o q nc F P : nc = Some F -> nc_open o F = Ok P -> file_scheme point text None o q nc = Ok (Some (ANetcdf P)) /\ file_scheme point text (Some (txt "netcdf")) o q nc = Ok (Some (ANetcdf P)).
Proof. intros -> E. unfold file_scheme. rewrite (c275 o F P E). cbn [str_eqb]. rewrite E. split; reflexivity. Qed.
Lemma c282_only (A B : Type) (point : res A) (text : res B) type o q nc K : file_scheme point text type o q nc = Ok (Some K) ->
  match K with
  | ANetcdf P => (type = None \/ type = Some (txt "netcdf")) /\ exists F, nc = Some F /\ nc_open o F = Ok P
  | APoint p => type = Some (txt "point") /\ point = Ok p
  | AText t => type = Some (txt "text") /\ text = Ok t
  | AQnh N => type = Some (txt "norcomQnh") /\ norcom_open q = Ok N
  end.
Proof.
  unfold file_scheme. set (ty := match type with Some t => t | None => _ end). intros E.
  assert (G : forall s, ty = txt s -> s <> ""%string -> type = Some (txt s) \/ (type = None /\ s = "netcdf"%string)). { intros s X NE. unfold ty in X. destruct type as [t|]; [left; congruence|right; split; [reflexivity|]]. destruct (match nc with Some F => _ | None => false end). 2:{ destruct s; [congruence|discriminate]. } clear - X.
    unfold txt in X. revert X. generalize "netcdf"%string. intros u X. assert (Y : string_of_list_ascii (list_ascii_of_string u) = string_of_list_ascii (list_ascii_of_string s)) by (rewrite X; reflexivity). rewrite !string_of_list_ascii_of_string in Y. congruence. }
  destruct (str_eqb_spec ty []) as [|N0]; [discriminate|]. destruct (str_eqb_spec ty (txt "netcdf")) as [Y|N1].
  { destruct nc as [F|]; [|discriminate]. apply bind_Ok in E as (P & EP & E). injection E as <-. split; [|eauto]. destruct (G _ Y ltac:(discriminate)) as [->|[-> _]]; auto. }
  destruct (str_eqb_spec ty (txt "point")) as [Y|N2]; [apply bind_Ok in E as (p & EP & E); injection E as <-; split; [|exact EP]; destruct (G _ Y ltac:(discriminate)) as [->|[_ X]]; [reflexivity|discriminate]|].
  destruct (str_eqb_spec ty (txt "text")) as [Y|N3]; [apply bind_Ok in E as (p & EP & E); injection E as <-; split; [|exact EP]; destruct (G _ Y ltac:(discriminate)) as [->|[_ X]]; [reflexivity|discriminate]|].
  destruct (str_eqb_spec ty (txt "norcomQnh")) as [Y|N4]; [apply bind_Ok in E as (p & EP & E); injection E as <-; split; [|exact EP]; destruct (G _ Y ltac:(discriminate)) as [->|[_ X]]; [reflexivity|discriminate]|]. discriminate.
Qed.
(** a file is recognised, but then the program stops *)
Definition no_times_file : pn_file := {| pn_x := {| x_dims := x_dims (pn_x globe); x_vars := filter (fun v => negb (str_eqb (fst v) (txt "time")) && negb (str_eqb (fst v) (txt "forecast_reference_time"))) (x_vars (pn_x globe)) |}; pn_names := pn_names globe |}.
Lemma c282_recognised : exists (F : pn_file) (o : no_options) (q : nq_options), nc_valid o F = true /\ forall A B (point : res A) (text : res B), file_scheme point text None o q (Some F) = Abort.
Proof. exists no_times_file, plain_options, {| q_lats := None; q_lons := None; q_elevs := None; q_names := None; q_num := None; q_start := None; q_end := None |}. split; [vm_compute; reflexivity|]. intros A B point text. vm_compute. reflexivity. Qed.
Lemma c282_none (A B : Type) (point : res A) (text : res B) o q nc : file_scheme point text None o q nc = Ok None <->
  forall F, nc = Some F -> lacks (x_vars (pn_x F)) (no_lat o) (txt "lat") (txt "latitude") \/ lacks (x_vars (pn_x F)) (no_lon o) (txt "lon") (txt "longitude").
Proof.
  unfold file_scheme, lacks. destruct nc as [F|]. 2:{ split; [intros _ F E; discriminate|reflexivity]. }
  assert (V : nc_valid o F = false <-> lacks (x_vars (pn_x F)) (no_lat o) (txt "lat") (txt "latitude") \/ lacks (x_vars (pn_x F)) (no_lon o) (txt "lon") (txt "longitude")).
  { unfold nc_valid, lacks. destruct (find_name _ (txt "lat")), (find_name _ (txt "latitude")), (no_lat o), (find_name _ (txt "lon")), (find_name _ (txt "longitude")), (no_lon o); cbn [orb andb]; intuition congruence. }
  unfold lacks in V. split.
  - intros E F0 X. injection X as <-. apply V. destruct (nc_valid o F); [|reflexivity]. cbn [str_eqb] in E. change (str_eqb (txt "netcdf") []) with false in E. change (str_eqb (txt "netcdf") (txt "netcdf")) with true in E. cbn iota in E. apply bind_Ok in E as (P & _ & E). discriminate.
  - intros H. apply proj2 in V. rewrite (V (H F eq_refl)). reflexivity.
Qed.
Lemma c282_unknown (A B : Type) (point : res A) (text : res B) t o q nc : t <> [] -> ~ In t [txt "netcdf"; txt "point"; txt "text"; txt "norcomQnh"] -> file_scheme point text (Some t) o q nc = Abort.
Proof.
  intros N0 N. cbn [In] in N. unfold file_scheme. destruct (str_eqb_spec t []); [contradiction|]. destruct (str_eqb_spec t (txt "netcdf")); [exfalso; apply N; auto|]. destruct (str_eqb_spec t (txt "point")); [exfalso; apply N; auto|].
  destruct (str_eqb_spec t (txt "text")); [exfalso; apply N; auto|]. destruct (str_eqb_spec t (txt "norcomQnh")); [exfalso; apply N; auto|reflexivity].
Qed.
Lemma c282_given (A B : Type) (point : res A) (text : res B) o q nc :
  (forall t, t <> [] -> file_scheme point text (Some t) o q nc <> Ok None) /\
  (nc = None -> file_scheme point text (Some (txt "netcdf")) o q nc = Abort) /\
  (forall p, point = Ok p -> file_scheme point text (Some (txt "point")) o q nc = Ok (Some (APoint p))) /\
  (forall t, text = Ok t -> file_scheme point text (Some (txt "text")) o q nc = Ok (Some (AText t))) /\
  (forall N, norcom_open q = Ok N -> file_scheme point text (Some (txt "norcomQnh")) o q nc = Ok (Some (AQnh N))).
Proof.
  split; [|split; [intros ->; reflexivity|split; [intros p ->; reflexivity|split; [intros t ->; reflexivity|intros N E; unfold file_scheme; cbn [str_eqb]; rewrite E; reflexivity]]]].
  intros t N0 E. unfold file_scheme in E. destruct (str_eqb_spec t []); [contradiction|].
  destruct (str_eqb t (txt "netcdf")); [destruct nc; [apply bind_Ok in E as (? & _ & E); discriminate|discriminate]|].
  destruct (str_eqb t (txt "point")); [apply bind_Ok in E as (? & _ & E); discriminate|].
  destruct (str_eqb t (txt "text")); [apply bind_Ok in E as (? & _ & E); discriminate|].
  destruct (str_eqb t (txt "norcomQnh")); [apply bind_Ok in E as (? & _ & E); discriminate|discriminate].
Qed.
