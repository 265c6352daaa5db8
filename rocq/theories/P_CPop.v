From Coq Require Import Permutation.
From Verif Require Import Base ListLib QcTac M_Stat S_Stat P_Stat P_Even M_COpt M_CUtil S_CUtil P_CUtil M_CCal S_CCal P_CCal M_CCal2 M_CGradient P_CGrad P_Slice P_NeighAll P_CorrPts M_CDist S_CDist P_CDist P_CGauss P_CBct P_CZaga.
Local Open Scope Z_scope.

(** the same value for all members of a point *)
Lemma fill_point d f i j v : of_size d f -> 0 <= i < d_y d -> 0 <= j < d_x d -> 0 <= d_e d -> exists g, foldM (fun f e => f_set f i j e v) f (zrange 0 (d_e d)) = Ok g /\ of_size d g /\ (forall e, 0 <= e < d_e d -> f_get g i j e = znth (init1 (d_e d) v) e) /\
  (forall y x e, within d y x e -> (y, x) <> (i, j) -> f_get g y x e = f_get f y x e).
Proof.
  intros H Hi Hj He. destruct (write_ok d f i j (init1 (d_e d) v) H Hi Hj He) as (g & E & R); [apply zlen_init1; auto|]. exists g. split; [|exact R]. rewrite <- E. unfold write_members. apply foldM_ext_in. intros s e K. apply in_zrange in K. rewrite init1_znth by lia. reflexivity.
Qed.
(** what the options give *)
Definition sound_options (o : zopts) (thr mx : Qc) : Prop := z_frac o = Fin thr /\ z_max o = Fin mx /\ (0 < mx)%Qc /\ 0 <= z_size o.
Lemma checks_ok o thr mx : sound_options o thr mx -> zaga_checks o = Ok tt.
Proof. intros (A & B & C & D). unfold zaga_checks. rewrite B. rewrite cvalid_nonneg by qlra. cbn [negb orb]. rewrite vleb_pos by auto. destruct (Z.ltb_spec (z_size o) 0); [lia|reflexivity]. Qed.
Lemma start_window o t : z_start o <= t -> z_window o <= t + 1.
Proof. unfold z_start, z_window. destruct (z_6h o); lia. Qed.
Lemma capped_nonneg a b : (0 < a)%Qc -> (0 <= b)%Qc -> (0 <= capped a b)%Qc.
Proof. intros. unfold capped. destruct (Qclt_le_dec a b); qlra. Qed.
Lemma gap_or_amounts d fs size w t y x l : shaped d fs -> 0 <= size -> w <= t + 1 -> t < d_t d -> hood d size y x l -> gap d fs size w t y x \/ exists a, forall c, In c l -> amount fs w t c (a c).
Proof.
  intros H Hs H1 H2 [ND HI].
  destruct (forallb (fun c => let '(y', x', e) := c in forallb (fun tt => match get4 fs tt y' x' e with Ok v => cvalid v | _ => false end) (zrange (t - w + 1) (t + 1))) l) eqn:F.
  - right. rewrite forallb_forall in F.
    exists (fun c => let '(y', x', e) := c in qsum (map (fun tt => match get4 fs tt y' x' e with Ok (Fin q) => q | _ => 0%Qc end) (zrange (t - w + 1) (t + 1)))).
    intros [[y' x'] e] K. pose proof (F _ K) as G. cbn in G. rewrite forallb_forall in G. exists (fun tt => match get4 fs tt y' x' e with Ok (Fin q) => q | _ => 0%Qc end). split; [|reflexivity].
    intros tt Ht. cbn [fst snd]. specialize (G tt ltac:(apply in_zrange; lia)). rewrite element_get. destruct (get4 fs tt y' x' e) as [v| | |]; try discriminate. apply cvalid_true in G as (q & -> & N). auto.
  - left. assert (K : exists c, In c l /\ (let '(y', x', e) := c in forallb (fun tt => match get4 fs tt y' x' e with Ok v => cvalid v | _ => false end) (zrange (t - w + 1) (t + 1))) = false).
    { clear - F. induction l as [|c l IH]; [discriminate|]. cbn [forallb] in F. apply andb_false_iff in F as [F|F]; [exists c; split; [left; auto|auto]|]. destruct (IH F) as (c' & A & B). exists c'. split; [right; auto|auto]. }
    destruct K as ([[y' x'] e] & K & G). apply HI in K as (W & D1 & D2).
    assert (K2 : exists tt, In tt (zrange (t - w + 1) (t + 1)) /\ match get4 fs tt y' x' e with Ok v => cvalid v | _ => false end = false).
    { clear - G. induction (zrange (t - w + 1) (t + 1)) as [|c l IH]; [discriminate|]. cbn [forallb] in G. apply andb_false_iff in G as [F|F]; [exists c; split; [left; auto|auto]|]. destruct (IH F) as (c' & A & B). exists c'. split; [right; auto|auto]. }
    destruct K2 as (tt & Ht & C). apply in_zrange in Ht. destruct (shaped_elem d fs tt y' x' e H) as (v & El & Gv); [lia|auto|]. rewrite Gv in C. exists y', x', e, tt, v. do 3 (split; [assumption|]). split; [lia|]. split; [exact El|]. apply cvalid_missing. auto.
Qed.
Lemma hood_exists d size y x : 0 <= size -> 0 <= y < d_y d -> 0 <= x < d_x d -> hood d size y x (around d size y x).
Proof. intros. split; [apply NoDup_around|]. intros. apply in_around; auto. Qed.
(** the predictors, from the elements of the file *)
Lemma predictors_cases o thr mx d fs t y x : sound_options o thr mx -> shaped d fs -> no_negative fs -> 0 < d_e d -> z_start o <= t < d_t d -> 0 <= y < d_y d -> 0 <= x < d_x d ->
  (gap d fs (z_size o) (z_window o) t y x -> zaga_predictors o d fs t y x = Ok None) /\
  (forall l a, hood d (z_size o) y x l -> (forall c, In c l -> amount fs (z_window o) t c (a c)) ->
     zaga_predictors o d fs t y x = Ok (Some (Fin (capped mx (qmean (map a l))), Fin (fraction thr (map a l)))) /\ (0 <= capped mx (qmean (map a l)))%Qc /\ (0 <= fraction thr (map a l) <= 1)%Qc).
Proof.
  intros (O1 & O2 & O3 & O4) H NN He Ht Hy Hx. pose proof (start_window o t ltac:(lia)) as W. split.
  - intros G. apply predictors_missing; auto; [|apply gap_window; auto; lia]. intros y' x' e K. apply (window_total_some d); auto; lia.
  - intros l a HH HA. destruct (predictors_ok o d fs t y x a l thr mx O1 O2 O3 O4 He Hy Hx HH) as (E & M & NE).
    { intros y' x' e K. apply amount_window; auto. }
    split; [exact E|]. split; [apply capped_nonneg; auto|]. apply fraction_range. destruct l; [congruence|discriminate].
Qed.
Section Pop.
Variables (ex : val -> val) (pw : val -> val -> val) (exq : Qc -> Qc) (pwq : Qc -> Qc -> Qc).
Hypothesis HX : on_numbers1 ex exq.
Hypothesis HW : on_nonneg2 pw pwq.
Hypothesis HP : positive exq.
Variables (o : zopts) (thr mx : Qc) (pars : Z -> Z -> Z -> vec) (d : dims) (precips : list field).
Hypothesis HO : sound_options o thr mx.
Hypothesis HS : shaped d precips.
Hypothesis NN : no_negative precips.
Hypothesis He : 0 < d_e d.
Hypothesis HL : forall t y x, 8 <= zlen (pars t y x).
Definition filled (V : Z -> Z -> Z -> Qc -> Qc -> val) (t y x : Z) (vs ws : vec) : Prop :=
  (gap d precips (z_size o) (z_window o) t y x -> ws = vs) /\
  (forall l a, hood d (z_size o) y x l -> (forall c, In c l -> amount precips (z_window o) t c (a c)) -> forall e w, znth ws e = Ok w -> w = V t y x (capped mx (qmean (map a l))) (fraction thr (map a l))).
Lemma init1_in {A} n (v : A) e w : znth (init1 n v) e = Ok w -> w = v.
Proof. intros K. apply znth_In in K. unfold init1 in K. apply in_map_iff in K as (? & <- & _). reflexivity. Qed.
Lemma some_eq (a b c e : Qc) : Ok (Some (Fin a, Fin b)) = Ok (Some (Fin c, Fin e)) -> c = a /\ e = b.
Proof. intros [= -> ->]. auto. Qed.
(** a loop that writes the same value, made from the predictors, to all members of a point *)
Lemma fill_local t (V : Z -> Z -> Z -> Qc -> Qc -> val) (val_of : Z -> Z -> val -> val -> res val) : z_start o <= t < d_t d ->
  (forall y x m fr, (0 <= m)%Qc -> (0 <= fr <= 1)%Qc -> val_of y x (Fin m) (Fin fr) = Ok (V t y x m fr)) ->
  local_step d (fun _ => True) (filled V t)
    (fun f c => let '(i, j) := c in p <- zaga_predictors o d precips t i j ;; match p with Some (ensMean, ensFrac) => foldM (fun f e => v <- val_of i j ensMean ensFrac ;; f_set f i j e v) f (zrange 0 (d_e d)) | None => Ok f end).
Proof.
  intros Ht HV f i j vs H Hi Hj Ev Lv _. destruct (predictors_cases o thr mx d precips t i j HO HS NN He Ht Hi Hj) as [PG PA]. pose proof HO as (_ & _ & _ & Hsz). pose proof (start_window o t ltac:(lia)) as W.
  destruct (ens_ok d f i j H Hi Hj He) as (vs' & Ev' & _ & Gv). assert (vs' = vs) by congruence. subst vs'. clear Ev'.
  destruct (gap_or_amounts d precips (z_size o) (z_window o) t i j _ HS Hsz W ltac:(lia) (hood_exists d (z_size o) i j Hsz Hi Hj)) as [G|[a HA]].
  - rewrite (PG G). cbn [bind]. exists f, vs. split; [reflexivity|]. split; [auto|]. split; [auto|]. split; [intros; symmetry; apply Gv; auto|]. split; [auto|]. split; [auto|]. intros l a HH HA. destruct (PA l a HH HA) as [K _]. rewrite (PG G) in K. discriminate.
  - destruct (PA _ a (hood_exists d (z_size o) i j Hsz Hi Hj) HA) as (E & M & F). rewrite E. cbn [bind]. rewrite (HV i j _ _ M F). cbn [bind]. set (v := V t i j _ _).
    destruct (fill_point d f i j v H Hi Hj ltac:(lia)) as (g & Eg & Sg & Gg & Og). exists g, (init1 (d_e d) v). split; [exact Eg|]. split; [auto|]. split; [apply zlen_init1; lia|]. split; [auto|]. split; [auto|].
    split; [intros G; rewrite (PG G) in E; discriminate|]. intros l a' HH HA' e w K. apply init1_in in K. subst w. destruct (PA l a' HH HA') as (E' & _). rewrite E in E'. apply some_eq in E' as [-> ->]. reflexivity.
Qed.
Lemma each_time_ext' body body' : (forall t, 0 <= t < d_t d -> body t = body' t) -> each_time d body = each_time d body'.
Proof. intros K. unfold each_time. apply mapM_ext. intros t Ht. apply in_zrange in Ht. auto. Qed.
Lemma filled_time V val_of early out (Early : vec -> vec -> Prop) : shaped d out ->
  (forall t y x m fr, (0 <= m)%Qc -> (0 <= fr <= 1)%Qc -> val_of t y x (Fin m) (Fin fr) = Ok (V t y x m fr)) ->
  (forall t, 0 <= t < d_t d -> t < z_start o -> local_step d (fun _ => True) (fun _ _ => Early) early) ->
  exists res, each_time d (fun t => f <- znth out t ;; foldM (fun f c => let '(i, j) := c in if t <? z_start o then early f (i, j) else
     p <- zaga_predictors o d precips t i j ;; match p with Some (ensMean, ensFrac) => foldM (fun f e => v <- val_of t i j ensMean ensFrac ;; f_set f i j e v) f (zrange 0 (d_e d)) | None => Ok f end) f (points d)) = Ok res /\ shaped d res /\
  forall t y x, 0 <= t < d_t d -> 0 <= y < d_y d -> 0 <= x < d_x d -> forall vs ws, members d out t y x vs -> members d res t y x ws -> (t < z_start o -> Early vs ws) /\ (z_start o <= t -> filled V t y x vs ws).
Proof.
  intros H HV HE.
  apply (points_calibrator d out (fun _ => True) (fun t y x vs ws => (t < z_start o -> Early vs ws) /\ (z_start o <= t -> filled V t y x vs ws))
    (fun t f c => let '(i, j) := c in if t <? z_start o then early f (i, j) else
     p <- zaga_predictors o d precips t i j ;; match p with Some (ensMean, ensFrac) => foldM (fun f e => v <- val_of t i j ensMean ensFrac ;; f_set f i j e v) f (zrange 0 (d_e d)) | None => Ok f end)); auto.
  intros t Ht f i j vs Sf Hi Hj Ev Lv _. destruct (Z.ltb_spec t (z_start o)) as [T|T].
  - destruct (HE t Ht T f i j vs Sf Hi Hj Ev Lv I) as (g & ws & A & B & C & D & F & G). exists g, ws. do 5 (split; [auto|]). split; [auto|intros; lia].
  - destruct (fill_local t V (val_of t) ltac:(lia) (HV t) f i j vs Sf Hi Hj Ev Lv I) as (g & ws & A & B & C & D & F & G). exists g, ws. do 5 (split; [auto|]). split; [intros; lia|auto].
Qed.
End Pop.
Lemma c200_pop ex pw gc exq pwq gcq gqq o thr mx T pars d precips pops : on_numbers1 ex exq -> on_nonneg2 pw pwq -> positive exq -> on_numbers3 gc gcq -> gamma_functions gcq gqq ->
  sound_options o thr mx -> z_threshold o = Fin T -> (0 <= T)%Qc -> shaped d precips -> shaped d pops -> no_negative precips -> 0 < d_e d -> (forall t y x, 8 <= zlen (pars t y x)) ->
  exists out, zaga_pop ex pw gc o pars d precips pops = Ok out /\ shaped d out /\
  forall t y x, 0 <= t < d_t d -> 0 <= y < d_y d -> 0 <= x < d_x d -> forall vs ws, members d pops t y x vs -> members d out t y x ws ->
    (t < z_start o -> Forall is_missing_value ws) /\
    (z_start o <= t -> gap d precips (z_size o) (z_window o) t y x -> ws = vs) /\
    (z_start o <= t -> forall l a, hood d (z_size o) y x l -> (forall c, In c l -> amount precips (z_window o) t c (a c)) ->
      forall e w, znth ws e = Ok w -> w = pop_value exq pwq gcq (pars t y x) (capped mx (qmean (map a l))) (fraction thr (map a l)) T).
Proof.
  intros HX HW HP HC HG HO HT T0 H1 H2 NN He HL. unfold zaga_pop. rewrite (checks_ok o thr mx HO). cbn [bind]. rewrite HT.
  destruct (filled_time o thr mx d precips HO H1 NN He (fun t y x m fr => pop_value exq pwq gcq (pars t y x) m fr T)
    (fun t i j m fr => cdf <- zaga_cdf ex pw gc m fr (pars t i j) (Fin T) ;; Ok (if cvalid cdf then vsub (fz 1) cdf else CMV)) (fun f c => let '(i, j) := c in foldM (fun pop e => f_set pop i j e CMV) f (zrange 0 (d_e d))) pops (fun _ ws => Forall is_missing_value ws) H2) as (out & E & S & G).
  - intros t y x m fr Hm Hf. rewrite (zaga_cdf_ok ex pw exq pwq HX HW HP m fr (pars t y x) Hm Hf (HL t y x) gc gcq gqq T HC HG T0). cbn [bind]. unfold pop_value.
    destruct (zaga_parameters exq pwq (pars t y x) m fr) as [[[P0 shape] scale]|] eqn:Z; [|reflexivity]. destruct (zaga_parameters_range exq pwq _ m fr P0 shape scale HP Z) as (P1 & S1 & S2). destruct (zaga_consistent gcq gqq P0 shape scale HG P1 S1 S2) as (R & _). rewrite cvalid_nonneg by apply R. unfold fz. rewrite qz_1, vsub_F. reflexivity.
  - intros t Ht Hs f i j vs Sf Hi Hj Ev Lv _. destruct (fill_point d f i j CMV Sf Hi Hj ltac:(lia)) as (g & Eg & Sg & Gg & Og). exists g, (init1 (d_e d) CMV). split; [exact Eg|]. split; [auto|]. split; [apply zlen_init1; lia|]. split; [auto|]. split; [auto|].
    apply Forall_forall. intros v Hv. apply in_map_iff in Hv as (? & <- & _). reflexivity.
  - exists out. split; [rewrite <- E; apply each_time_ext'; intros t Ht; destruct (znth pops t); cbn [bind]; try reflexivity; apply foldM_ext_in; intros f [i j] _; destruct (t <? z_start o); [reflexivity|]; destruct (zaga_predictors o d precips t i j) as [[[m fr]|]| | |]; cbn [bind]; try reflexivity; apply foldM_ext_in; intros f' e _; destruct (zaga_cdf ex pw gc m fr (pars t i j) (Fin T)); reflexivity|].
    split; [exact S|]. intros t y x Ht Hy Hx vs ws Mv Mw. destruct (G t y x Ht Hy Hx vs ws Mv Mw) as [G1 G2]. split; [exact G1|]. split; intros K; apply G2 in K as [K1 K2]; auto.
Qed.
Lemma c200_level ex pw gq exq pwq gcq gqq o thr mx p pars d precips outs : on_numbers1 ex exq -> on_nonneg2 pw pwq -> positive exq -> on_numbers3 gq gqq -> gamma_functions gcq gqq ->
  sound_options o thr mx -> (0 < p < 1)%Qc -> shaped d precips -> shaped d outs -> no_negative precips -> 0 < d_e d -> (forall t y x, 8 <= zlen (pars t y x)) ->
  exists out, zaga_level ex pw gq o (Fin p) pars d precips outs = Ok out /\ shaped d out /\
  forall t y x, 0 <= t < d_t d -> 0 <= y < d_y d -> 0 <= x < d_x d -> forall vs ws, members d outs t y x vs -> members d out t y x ws ->
    (t < z_start o -> ws = vs) /\
    (z_start o <= t -> gap d precips (z_size o) (z_window o) t y x -> ws = vs) /\
    (z_start o <= t -> forall l a, hood d (z_size o) y x l -> (forall c, In c l -> amount precips (z_window o) t c (a c)) ->
      forall e w, znth ws e = Ok w -> w = zaga_law exq pwq gqq (pars t y x) (capped mx (qmean (map a l))) (fraction thr (map a l)) p).
Proof.
  intros HX HW HP HQ HG HO Hp H1 H2 NN He HL. unfold zaga_level. rewrite (checks_ok o thr mx HO). cbn [bind].
  destruct (filled_time o thr mx d precips HO H1 NN He (fun t y x m fr => zaga_law exq pwq gqq (pars t y x) m fr p)
    (fun t i j m fr => zaga_inv ex pw gq m fr (pars t i j) (Fin p)) (fun f c => Ok f) outs (fun vs ws => ws = vs) H2) as (out & E & S & G).
  - intros t y x m fr Hm Hf. apply (zaga_inv_ok ex pw exq pwq HX HW HP m fr (pars t y x) Hm Hf (HL t y x) gq gqq gcq p HQ HG Hp).
  - intros t Ht Hs f i j vs Sf Hi Hj Ev Lv _. destruct (ens_ok d f i j Sf Hi Hj He) as (vs' & Ev' & _ & Gv). assert (vs' = vs) by congruence. subst vs'. exists f, vs. split; [reflexivity|]. split; [auto|]. split; [auto|]. split; [intros; symmetry; apply Gv; auto|]. auto.
  - exists out. split; [exact E|]. split; [exact S|]. intros t y x Ht Hy Hx vs ws Mv Mw. destruct (G t y x Ht Hy Hx vs ws Mv Mw) as [G1 G2]. split; [exact G1|]. split; intros K; apply G2 in K as [K1 K2]; auto.
Qed.
