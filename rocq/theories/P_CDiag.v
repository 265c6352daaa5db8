From Coq Require Import Reals String Ascii Lra Lia Qround.
From Verif Require Import RBase RPow P_RBase M_Stat M_COpt M_CUtil S_CUtil P_CUtil M_CCal S_CCal P_CCal ListLib M_Diag P_Wind M_RelHum S_RelHum P_RelHum QcTac P_Stat P_Even M_CDiag S_CDiag.
Local Open Scope Z_scope.

(** fields *)
Lemma each_time_ext d body body' : (forall t, 0 <= t < d_t d -> body t = body' t) -> each_time d body = each_time d body'.
Proof. intros H. unfold each_time. apply mapM_ext. intros t Ht. apply in_zrange in Ht. auto. Qed.
Lemma diagnose2_ok f2 A B d outs : shaped d A -> shaped d B -> shaped d outs -> (forall u v, ~ missing u -> ~ missing v -> exists w, f2 u v = Ok w) ->
  exists outs', diagnose2 f2 (Some A) (Some B) d outs = Ok outs' /\ computed2 d (fun u v w => f2 u v = Ok w) A B outs outs'.
Proof.
  intros HA HB HO HF. unfold diagnose2. cbn [input].
  set (body := fun t (o : field) y x e => fa <- znth A t ;; fb <- znth B t ;; u <- f_get fa y x e ;; v <- f_get fb y x e ;; if cvalid u && cvalid v then w <- f2 u v ;; f_set o y x e w else Ok o).
  destruct (elementwise d outs body (fun t y x e w w' => forall u v, element A t y x e u -> element B t y x e v -> (~ missing u -> ~ missing v -> f2 u v = Ok w') /\ (missing u \/ missing v -> w' = w)) HO) as (outs' & E & S & G).
  - intros t f0 Ht E0 S0 f y x e w Sf W G0 Gf. destruct (shaped_nth d A t HA Ht) as (fa & Ea & Sa). destruct (shaped_nth d B t HB Ht) as (fb & Eb & Sb). unfold body. rewrite Ea, Eb. cbn [bind].
    destruct (of_size_get d fa y x e Sa W) as [u Eu]. destruct (of_size_get d fb y x e Sb W) as [v Ev]. rewrite Eu, Ev. cbn [bind].
    assert (UU : forall u' v', element A t y x e u' -> element B t y x e v' -> u' = u /\ v' = v). { intros u' v' (fa' & K1 & K2) (fb' & K3 & K4). split; congruence. }
    destruct (cvalid u) eqn:Cu; [destruct (cvalid v) eqn:Cv|]; cbn [andb].
    + assert (Nu : ~ missing u) by (intros M; apply cvalid_missing in M; congruence). assert (Nv : ~ missing v) by (intros M; apply cvalid_missing in M; congruence). destruct (HF u v Nu Nv) as [r Er]. rewrite Er. cbn [bind]. left. exists r. split; [reflexivity|].
      exists w. split; [exact G0|]. intros u' v' K1 K2. destruct (UU u' v' K1 K2) as [-> ->]. split; [auto|]. intros [M|M]; contradiction.
    + right. split; [reflexivity|]. exists w. split; [exact G0|]. intros u' v' K1 K2. destruct (UU u' v' K1 K2) as [-> ->]. split; [|auto]. intros _ M. apply cvalid_missing in Cv. contradiction.
    + right. split; [reflexivity|]. exists w. split; [exact G0|]. intros u' v' K1 K2. destruct (UU u' v' K1 K2) as [-> ->]. split; [|auto]. intros M. apply cvalid_missing in Cu. contradiction.
  - exists outs'. split.
    + transitivity (each_time d (fun t => f <- znth outs t ;; for3 d f (body t))); [|exact E]. apply each_time_ext. intros t Ht. destruct (shaped_nth d outs t HO Ht) as (o & Eo & So). destruct (shaped_nth d A t HA Ht) as (fa & Ea & Sa). destruct (shaped_nth d B t HB Ht) as (fb & Eb & Sb).
      rewrite Eo, Ea, Eb. cbn [bind]. unfold body, for3. rewrite Ea, Eb. reflexivity.
    + split; [exact S|]. intros t y x e u v w Ht W K1 K2 K3. destruct (G t y x e w Ht W K3) as (w' & Ew & Hw). exists w'. split; [exact Ew|]. apply Hw; auto.
Qed.
Lemma diagnose2_absent f2 a b d outs : shaped d outs -> 0 < d_t d -> match a with Some A => shaped d A | None => True end -> a = None \/ b = None -> diagnose2 f2 a b d outs = Abort.
Proof.
  intros HO Ht HA HN. unfold diagnose2, each_time. rewrite zrange_cons by lia. cbn [mapM]. destruct (shaped_nth d outs 0 HO ltac:(lia)) as (o & Eo & _). rewrite Eo. cbn [bind].
  destruct a as [A|]; [|reflexivity]. cbn [input]. destruct (shaped_nth d A 0 HA ltac:(lia)) as (fa & Ea & _). rewrite Ea. cbn [bind]. destruct HN as [?| ->]; [discriminate|]. reflexivity.
Qed.

Lemma named_iff s : named s = true <-> s <> [].
Proof. unfold named. destruct s; split; try discriminate; try congruence; reflexivity. Qed.
Lemma c203_wind k fx fy fs fd file x y speed direction d outs A B : let '(a, b) := wind_inputs k x y speed direction in a <> [] -> b <> [] -> file a = Some A -> file b = Some B -> shaped d A -> shaped d B -> shaped d outs ->
  exists outs', diagnose_wind fx fy fs fd file x y speed direction (wind_name k) d outs = Ok outs' /\ computed2 d (fun u v w => w = wind_function k fx fy fs fd u v) A B outs outs'.
Proof.
  destruct (wind_inputs k x y speed direction) as [a b] eqn:EI. intros Na Nb Ha Hb SA SB SO.
  destruct (diagnose2_ok (fun u v => Ok (wind_function k fx fy fs fd u v)) A B d outs SA SB SO) as (outs' & E & S & G); [intros; eauto|]. exists outs'.
  apply named_iff in Na. apply named_iff in Nb. split.
  - unfold diagnose_wind, wind_checks. destruct k; injection EI as <- <-; cbn - [named diagnose2] ; rewrite Na, Nb; cbn - [diagnose2]; rewrite Ha, Hb; exact E.
  - split; [exact S|]. intros t y' x' e u v w Ht W K1 K2 K3. destruct (G t y' x' e u v w Ht W K1 K2 K3) as (w' & G1 & G2 & G3). exists w'. split; [exact G1|]. split; [|exact G3]. intros M1 M2. specialize (G2 M1 M2). congruence.
Qed.
Lemma c204_wind_checks k fx fy fs fd file x y speed direction d outs : let '(a, b) := wind_inputs k x y speed direction in
  (a = [] \/ b = [] -> diagnose_wind fx fy fs fd file x y speed direction (wind_name k) d outs = Abort) /\
  (file a = None \/ file b = None -> (forall n fs, file n = Some fs -> shaped d fs) -> shaped d outs -> 0 < d_t d -> diagnose_wind fx fy fs fd file x y speed direction (wind_name k) d outs = Abort).
Proof.
  destruct (wind_inputs k x y speed direction) as [a b] eqn:EI. assert (Q : a = [] \/ b = [] -> diagnose_wind fx fy fs fd file x y speed direction (wind_name k) d outs = Abort).
  { intros N. unfold diagnose_wind, wind_checks. destruct k; injection EI as <- <-; destruct N as [->| ->]; cbn - [named diagnose2]; try reflexivity; match goal with |- context [named ?s] => destruct (named s) end; reflexivity. }
  split; [exact Q|]. intros N HF HO Ht. destruct (named a) eqn:Na; [destruct (named b) eqn:Nb|].
  - assert (R : forall f2, diagnose2 f2 (file a) (file b) d outs = Abort). { intros f2. apply diagnose2_absent; auto. destruct (file a) eqn:Ea; [apply (HF a); auto|exact I]. }
    unfold diagnose_wind, wind_checks. destruct k; injection EI as <- <-; cbn - [named diagnose2]; rewrite Na, Nb; cbn - [diagnose2]; apply R.
  - apply Q. right. destruct b; [reflexivity|discriminate].
  - apply Q. left. destruct a; [reflexivity|discriminate].
Qed.
Lemma c204_wind_refuted : exists compute, ~ known_wind compute /\ forall fx fy fs fd file x y speed direction d outs, diagnose_wind fx fy fs fd file x y speed direction compute d outs = Ok outs.
Proof. exists (txt "velocity"). split; [intros [[] H]; discriminate|]. reflexivity. Qed.
Lemma c203_humidity fdew frh fw pr file hasElevs elevs temperature rh dewpoint pressure d outs T X : file temperature = Some T -> shaped d T -> shaped d X -> shaped d outs ->
  (rh <> [] -> file rh = Some X -> exists outs', diagnose_humidity fdew frh fw pr file hasElevs elevs temperature rh dewpoint pressure (txt "dewpoint") d outs = Ok outs' /\ computed2 d (fun u v w => w = fdew u v) T X outs outs') /\
  (dewpoint <> [] -> file dewpoint = Some X -> (forall u v, ~ missing u -> ~ missing v -> exists w, frh u v = Ok w) ->
    exists outs', diagnose_humidity fdew frh fw pr file hasElevs elevs temperature rh dewpoint pressure (txt "rh") d outs = Ok outs' /\ computed2 d (fun u v w => frh u v = Ok w) T X outs outs').
Proof.
  intros HT ST SX SO. split.
  - intros N HX. apply named_iff in N. destruct (diagnose2_ok (fun u v => Ok (fdew u v)) T X d outs ST SX SO) as (outs' & E & S & G); [intros; eauto|]. exists outs'. split.
    + unfold diagnose_humidity, humidity_checks. cbn - [named diagnose2]. rewrite N. cbn - [diagnose2]. rewrite HT, HX. exact E.
    + split; [exact S|]. intros t y' x' e u v w Ht W K1 K2 K3. destruct (G t y' x' e u v w Ht W K1 K2 K3) as (w' & G1 & G2 & G3). exists w'. split; [exact G1|]. split; [|exact G3]. intros M1 M2. specialize (G2 M1 M2). congruence.
  - intros N HX HF. apply named_iff in N. destruct (diagnose2_ok frh T X d outs ST SX SO HF) as (outs' & E & G). exists outs'. split; [|exact G].
    unfold diagnose_humidity, humidity_checks. cbn - [named diagnose2]. rewrite N. cbn - [diagnose2]. rewrite HT, HX. exact E.
Qed.
Lemma c204_humidity fdew frh fw pr file hasElevs elevs temperature rh dewpoint pressure d outs :
  (rh = [] -> diagnose_humidity fdew frh fw pr file hasElevs elevs temperature rh dewpoint pressure (txt "dewpoint") d outs = Abort /\ diagnose_humidity fdew frh fw pr file hasElevs elevs temperature rh dewpoint pressure (txt "wetbulb") d outs = Abort) /\
  (dewpoint = [] -> diagnose_humidity fdew frh fw pr file hasElevs elevs temperature rh dewpoint pressure (txt "rh") d outs = Abort).
Proof. split; [intros ->; split; reflexivity|intros ->; reflexivity]. Qed.
Lemma c204_humidity_refuted : exists compute, ~ known_humidity compute /\ forall fdew frh fw pr file hasElevs elevs temperature rh dewpoint pressure d outs, diagnose_humidity fdew frh fw pr file hasElevs elevs temperature rh dewpoint pressure compute d outs = Ok outs.
Proof. exists (txt "wetBulb"). split; [intros [H|[H|H]]; discriminate|]. reflexivity. Qed.
Lemma c203_qnh fq elevs d P outs : rect (d_y d) (d_x d) elevs -> shaped d P -> shaped d outs -> exists outs', qnh_calibrator fq elevs d P outs = Ok outs' /\ computed_at d elevs fq P outs outs'.
Proof.
  intros HE HP HO. unfold qnh_calibrator.
  set (body := fun t (o : field) i j e => fp <- znth P t ;; elev <- get2 elevs i j ;; p <- f_get fp i j e ;; if cvalid p && cvalid elev then f_set o i j e (fq elev p) else Ok o).
  destruct (elementwise d outs body (fun t y x e w w' => forall u z, element P t y x e u -> get2 elevs y x = Ok z -> (~ missing u -> ~ missing z -> w' = fq z u) /\ (missing u \/ missing z -> w' = w)) HO) as (outs' & E & S & G).
  - intros t f0 Ht E0 S0 f y x e w Sf W G0 Gf. destruct (shaped_nth d P t HP Ht) as (fa & Ea & Sa). unfold body. rewrite Ea. cbn [bind].
    destruct (rect_get2 (d_y d) (d_x d) elevs y x HE ltac:(destruct W; lia) ltac:(destruct W; lia)) as [z Ez]. destruct (of_size_get d fa y x e Sa W) as [u Eu]. rewrite Ez, Eu. cbn [bind].
    assert (UU : forall u' z', element P t y x e u' -> get2 elevs y x = Ok z' -> u' = u /\ z' = z). { intros u' v' (fa' & K1 & K2) K3. split; congruence. }
    destruct (cvalid u) eqn:Cu; [destruct (cvalid z) eqn:Cv|]; cbn [andb].
    + assert (Nu : ~ missing u) by (intros M; apply cvalid_missing in M; congruence). assert (Nv : ~ missing z) by (intros M; apply cvalid_missing in M; congruence). left. exists (fq z u). split; [reflexivity|].
      exists w. split; [exact G0|]. intros u' v' K1 K2. destruct (UU u' v' K1 ltac:(congruence)) as [-> ->]. split; [auto|]. intros [M|M]; contradiction.
    + right. split; [reflexivity|]. exists w. split; [exact G0|]. intros u' v' K1 K2. destruct (UU u' v' K1 ltac:(congruence)) as [-> ->]. split; [|auto]. intros _ M. apply cvalid_missing in Cv. contradiction.
    + right. split; [reflexivity|]. exists w. split; [exact G0|]. intros u' v' K1 K2. destruct (UU u' v' K1 ltac:(congruence)) as [-> ->]. split; [|auto]. intros M. apply cvalid_missing in Cu. contradiction.
  - exists outs'. split.
    + transitivity (each_time d (fun t => f <- znth outs t ;; for3 d f (body t))); [|exact E]. apply each_time_ext. intros t Ht. destruct (shaped_nth d outs t HO Ht) as (o & Eo & So). destruct (shaped_nth d P t HP Ht) as (fa & Ea & Sa).
      rewrite Eo, Ea. cbn [bind]. unfold body, for3. rewrite Ea. reflexivity.
    + split; [exact S|]. intros t y x e u z w Ht W K1 K2 K3. destruct (G t y x e w Ht W K3) as (w' & Ew & Hw). exists w'. split; [exact Ew|]. apply Hw; auto.
Qed.
Lemma wetbulb_ok fw pr T X P hasElevs elevs d outs : rect (d_y d) (d_x d) elevs -> shaped d T -> shaped d X -> shaped d outs -> match P with Some P => shaped d P | None => hasElevs = true end ->
  exists outs', diagnose_wetbulb fw pr (Some T) (Some X) (match P with Some P => Some (Some P) | None => None end) hasElevs elevs d outs = Ok outs' /\ computed_wetbulb d elevs fw pr T X P outs outs'.
Proof.
  intros HE HA HB HO HP. unfold diagnose_wetbulb. cbn [input].
  set (body := fun t (o : field) y x e => fa <- znth T t ;; fb <- znth X t ;; fp <- match P with Some p => f <- znth p t ;; Ok (Some f) | None => Ok None end ;; elev <- get2 elevs y x ;; u <- f_get fa y x e ;; v <- f_get fb y x e ;;
    if cvalid u && cvalid v then p <- match fp with Some f => f_get f y x e | None => Ok (pr elev) end ;; f_set o y x e (fw u p v) else Ok o).
  destruct (elementwise d outs body (fun t y x e w w' => forall u v p, element T t y x e u -> element X t y x e v -> match P with Some P => element P t y x e p | None => exists z, get2 elevs y x = Ok z /\ p = pr z end ->
     (~ missing u -> ~ missing v -> w' = fw u p v) /\ (missing u \/ missing v -> w' = w)) HO) as (outs' & E & S & G).
  - intros t f0 Ht E0 S0 f y x e w Sf W G0 Gf. destruct (shaped_nth d T t HA Ht) as (fa & Ea & Sa). destruct (shaped_nth d X t HB Ht) as (fb & Eb & Sb). unfold body. rewrite Ea, Eb. cbn [bind].
    destruct (rect_get2 (d_y d) (d_x d) elevs y x HE ltac:(destruct W; lia) ltac:(destruct W; lia)) as [z Ez].
    destruct (of_size_get d fa y x e Sa W) as [u Eu]. destruct (of_size_get d fb y x e Sb W) as [v Ev].
    assert (UU : forall u' v', element T t y x e u' -> element X t y x e v' -> u' = u /\ v' = v). { intros u' v' (fa' & K1 & K2) (fb' & K3 & K4). split; congruence. }
    assert (PP : exists fp p, match P with Some p => f <- znth p t ;; Ok (Some f) | None => Ok None end = Ok fp /\ match fp with Some f => f_get f y x e | None => Ok (pr z) end = Ok p /\
       forall p', match P with Some P => element P t y x e p' | None => exists z, get2 elevs y x = Ok z /\ p' = pr z end -> p' = p).
    { destruct P as [P|]. - destruct (shaped_nth d P t HP Ht) as (fp & Ep & Sp). destruct (of_size_get d fp y x e Sp W) as [p Hp]. exists (Some fp), p. rewrite Ep. split; [reflexivity|]. split; [exact Hp|]. intros p' (f' & K1 & K2). congruence.
      - exists None, (pr z). split; [reflexivity|]. split; [reflexivity|]. intros p' (z' & K1 & K2). congruence. }
    destruct PP as (fp & p & P1 & P2 & P3). rewrite P1. cbn [bind]. rewrite Ez in P3. rewrite Ez, Eu, Ev. cbn [bind].
    destruct (cvalid u) eqn:Cu; [destruct (cvalid v) eqn:Cv|]; cbn [andb].
    + assert (Nu : ~ missing u) by (intros M; apply cvalid_missing in M; congruence). assert (Nv : ~ missing v) by (intros M; apply cvalid_missing in M; congruence). rewrite P2. cbn [bind]. left. exists (fw u p v). split; [reflexivity|].
      exists w. split; [exact G0|]. intros u' v' p' K1 K2 K3. destruct (UU u' v' K1 K2) as [-> ->]. rewrite (P3 p' K3). split; [auto|]. intros [M|M]; contradiction.
    + right. split; [reflexivity|]. exists w. split; [exact G0|]. intros u' v' p' K1 K2 _. destruct (UU u' v' K1 K2) as [-> ->]. split; [|auto]. intros _ M. apply cvalid_missing in Cv. contradiction.
    + right. split; [reflexivity|]. exists w. split; [exact G0|]. intros u' v' p' K1 K2 _. destruct (UU u' v' K1 K2) as [-> ->]. split; [|auto]. intros M. apply cvalid_missing in Cu. contradiction.
  - exists outs'. split.
    + transitivity (each_time d (fun t => f <- znth outs t ;; for3 d f (body t))); [|exact E]. apply each_time_ext. intros t Ht. destruct (shaped_nth d outs t HO Ht) as (o & Eo & So). destruct (shaped_nth d T t HA Ht) as (fa & Ea & Sa). destruct (shaped_nth d X t HB Ht) as (fb & Eb & Sb).
      rewrite Eo, Ea, Eb. cbn [bind]. unfold body, for3. rewrite Ea, Eb. destruct P as [P|].
      * destruct (shaped_nth d P t HP Ht) as (fp & Ep & Sp). cbn [input]. rewrite Ep. reflexivity.
      * rewrite HP. reflexivity.
    + split; [exact S|]. intros t y x e u v w p Ht W K1 K2 K3 K4. destruct (G t y x e w Ht W K3) as (w' & Ew & Hw). exists w'. split; [exact Ew|]. apply Hw; auto.
Qed.
Lemma c203_wetbulb fdew frh fw pr file hasElevs elevs temperature rh dewpoint pressure d outs T X P : file temperature = Some T -> rh <> [] -> file rh = Some X -> shaped d T -> shaped d X -> shaped d outs -> rect (d_y d) (d_x d) elevs ->
  match P with Some P => pressure <> [] /\ file pressure = Some P /\ shaped d P | None => pressure = [] /\ hasElevs = true end ->
  exists outs', diagnose_humidity fdew frh fw pr file hasElevs elevs temperature rh dewpoint pressure (txt "wetbulb") d outs = Ok outs' /\ computed_wetbulb d elevs fw pr T X P outs outs'.
Proof.
  intros HT N HX ST SX SO HE HP. apply named_iff in N. destruct (wetbulb_ok fw pr T X P hasElevs elevs d outs HE ST SX SO) as (outs' & E & G). { destruct P; tauto. } exists outs'. split; [|exact G].
  unfold diagnose_humidity, humidity_checks. cbn - [named diagnose_wetbulb]. rewrite N. cbn - [named diagnose_wetbulb]. rewrite HT, HX. destruct P as [P|].
  - destruct HP as (N2 & HP & _). apply named_iff in N2. rewrite N2, HP. exact E.
  - destruct HP as (-> & HP). exact E.
Qed.
Lemma c204_no_elevation fdew frh fw pr file elevs temperature rh dewpoint d outs T X : file temperature = Some T -> file rh = Some X -> shaped d T -> shaped d X -> shaped d outs -> 0 < d_t d ->
  diagnose_humidity fdew frh fw pr file false elevs temperature rh dewpoint [] (txt "wetbulb") d outs = Abort.
Proof.
  intros HT HX ST SX SO Ht. unfold diagnose_humidity, humidity_checks. cbn - [named diagnose_wetbulb]. destruct (named rh); cbn - [named diagnose_wetbulb]; [|reflexivity]. rewrite HT, HX. change (named []) with false. cbn [negb].
  unfold diagnose_wetbulb, each_time. rewrite zrange_cons by lia. cbn [mapM input]. destruct (shaped_nth d outs 0 SO ltac:(lia)) as (o & Eo & _). destruct (shaped_nth d T 0 ST ltac:(lia)) as (fa & Ea & _). destruct (shaped_nth d X 0 SX ltac:(lia)) as (fb & Eb & _).
  rewrite Eo, Ea, Eb. reflexivity.
Qed.

(** wind *)
Open Scope R_scope.
Lemma client_speed_RF x y : client_speed (RF x) (RF y) = RF (sqrt (x * x + y * y)).
Proof. apply wind_speed_RF. Qed.
Lemma client_direction_RF nx ny x y : client_direction nx ny (RF x) (RF y) = RF (turn (Ratan2 nx ny (- x) (- y) * 180 / gpi)).
Proof. apply wind_direction_RF. Qed.
Lemma client_x_RF s d : client_x (RF s) (RF d) = RF (- s * sin (d / 180 * gpi)).
Proof. unfold client_x, rz. rewrite rdiv_RF by lra. reflexivity. Qed.
Lemma client_y_RF s d : client_y (RF s) (RF d) = RF (- s * cos (d / 180 * gpi)).
Proof. unfold client_y, rz. rewrite rdiv_RF by lra. reflexivity. Qed.
Lemma polar_norm s p : 0 <= s -> sqrt ((s * sin p) * (s * sin p) + (s * cos p) * (s * cos p)) = s.
Proof.
  intros H. replace ((s * sin p) * (s * sin p) + (s * cos p) * (s * cos p)) with (Rsqr s * (Rsqr (sin p) + Rsqr (cos p))) by (unfold Rsqr; ring). rewrite sin2_cos2, Rmult_1_r. apply sqrt_Rsqr. exact H.
Qed.
Lemma same_angle a p : - PI <= a <= PI -> 0 <= p < 2 * PI + 1 -> cos a = cos p -> sin a = sin p -> a = p \/ a = p - 2 * PI.
Proof.
  intros Ha Hp C S. pose proof PI_bounds as B. assert (S0 : sin (a - p) = 0) by (rewrite sin_minus, C, S; ring). assert (C0 : cos (a - p) = 1). { rewrite cos_minus, C, S. pose proof (sin2_cos2 p) as K. unfold Rsqr in K. lra. }
  destruct (sin_eq_0_0 _ S0) as [k Hk]. assert (K1 : IZR k < 2). { apply (Rmult_lt_reg_r PI); lra. } assert (K2 : -4 < IZR k). { apply (Rmult_lt_reg_r PI); lra. }
  apply lt_IZR in K1. apply (lt_IZR (-4)) in K2. assert (Q : (k = -3 \/ k = -2 \/ k = -1 \/ k = 0 \/ k = 1)%Z) by lia. destruct Q as [-> |[-> |[-> |[-> | -> ]]]]; [exfalso|right; lra|exfalso|left; lra|exfalso]; rewrite Hk in C0.
  - replace (-3 * PI) with (- (PI + 2 * PI)) in C0 by ring. rewrite cos_neg, cos_plus, cos_2PI, sin_2PI, cos_PI in C0. lra.
  - replace (-1 * PI) with (- PI) in C0 by ring. rewrite cos_neg, cos_PI in C0. lra.
  - rewrite Rmult_1_l, cos_PI in C0. lra.
Qed.
Lemma small_over_gpi : 0 <= 360 * (gpi - PI) / gpi <= 2 / 100000.
Proof.
  pose proof gpi_bounds as (G1 & G2 & G3). split; [apply Rle_mult_inv_pos; lra|]. apply (Rmult_le_reg_r gpi); [lra|]. unfold Rdiv. rewrite Rmult_assoc, Rinv_l by lra. lra.
Qed.
Lemma c205_back nx ny s d : 0 <= s -> 0 <= d < 360 ->
  exists x y, client_x (RF s) (RF d) = RF x /\ client_y (RF s) (RF d) = RF y /\ client_speed (RF x) (RF y) = RF s /\
    (0 < s -> exists d', client_direction nx ny (RF x) (RF y) = RF d' /\ close_angle (2 / 100000) d' d).
Proof.
  intros Hs Hd. pose proof gpi_bounds as (G1 & G2 & G3). pose proof PI_bounds as PB. set (p := d / 180 * gpi). exists (- s * sin p), (- s * cos p). rewrite client_x_RF, client_y_RF. split; [reflexivity|]. split; [reflexivity|]. split.
  - rewrite client_speed_RF. f_equal. rewrite <- (polar_norm s p Hs) at 5. f_equal. ring.
  - intros Ps. rewrite client_direction_RF. eexists. split; [reflexivity|]. replace (- (- s * sin p)) with (s * sin p) by ring. replace (- (- s * cos p)) with (s * cos p) by ring.
    destruct (Ratan2_polar nx ny (s * sin p) (s * cos p)) as [C S]. pose proof (Ratan2_range nx ny (s * sin p) (s * cos p)) as R. set (a := Ratan2 nx ny (s * sin p) (s * cos p)) in *. clearbody a.
    rewrite Rplus_comm, polar_norm in C, S by lra. apply Rmult_eq_reg_l in C; [|lra]. apply Rmult_eq_reg_l in S; [|lra].
    assert (Hp : 0 <= p < 2 * PI + 1). { unfold p. split; [apply Rmult_le_pos; lra|]. assert (d / 180 * gpi < 2 * gpi) by (apply Rmult_lt_compat_r; lra). lra. }
    assert (PD : p * 180 / gpi = d) by (unfold p; field; lra). pose proof small_over_gpi as SM.
    destruct (same_angle a p R Hp (eq_sym C) (eq_sym S)) as [-> | ->].
    + rewrite PD. exists 0%Z. unfold turn. destruct (Rlt_dec d 0); [lra|]. replace (d - d - 360 * 0) with 0 by ring. rewrite Rabs_R0. lra.
    + replace ((p - 2 * PI) * 180 / gpi) with (d - 360 + 360 * (gpi - PI) / gpi) by (rewrite <- PD; field; lra). set (u := 360 * (gpi - PI) / gpi) in *. clearbody u. unfold turn. destruct (Rlt_dec (d - 360 + u) 0).
      * exists 0%Z. replace (d - 360 + u + 360 - d - 360 * 0) with u by ring. rewrite Rabs_right; lra.
      * exists (-1)%Z. replace (d - 360 + u - d - 360 * -1) with u by ring. rewrite Rabs_right; lra.
Qed.
Lemma sin_small z : 0 <= z < 1 -> 0 <= sin z <= z.
Proof. intros H. pose proof PI_bounds. destruct (Req_dec z 0) as [->|N]; [rewrite sin_0; lra|]. split; [apply sin_ge_0; lra|left; apply sin_lt_x; lra]. Qed.
Lemma cos_small z : 0 <= z < 1 -> 0 <= 1 - cos z <= z.
Proof.
  intros H. pose proof (COS_bound z) as B. split; [lra|]. replace z with (2 * (z / 2)) at 1 by field. rewrite cos_2a_sin. pose proof (sin_small (z / 2)) as S. assert (0 <= sin (z / 2) <= z / 2) by (apply S; lra). nra.
Qed.
Lemma abs_le_inv u v : Rabs u <= v -> - v <= u <= v.
Proof. intros H. unfold Rabs in H. destruct (Rcase_abs u); lra. Qed.
Lemma shift_small a z : 0 <= z < 1 -> Rabs (sin (a + z) - sin a) <= 2 * z /\ Rabs (cos (a + z) - cos a) <= 2 * z.
Proof.
  intros H. rewrite sin_plus, cos_plus. pose proof (sin_small z H). pose proof (cos_small z H). pose proof (SIN_bound a). pose proof (COS_bound a).
  set (sa := sin a) in *. set (ca := cos a) in *. set (sz := sin z) in *. set (w := cos z) in *. clearbody sa ca sz w.
  split; apply Rabs_le; split; nra.
Qed.
Lemma c205_forth nx ny x y : exists s d x' y', client_speed (RF x) (RF y) = RF s /\ client_direction nx ny (RF x) (RF y) = RF d /\ client_x (RF s) (RF d) = RF x' /\ client_y (RF s) (RF d) = RF y' /\
  Rabs (x' - x) <= s * (6 / 10000000) /\ Rabs (y' - y) <= s * (6 / 10000000).
Proof.
  pose proof gpi_bounds as (G1 & G2 & G3). rewrite client_speed_RF, client_direction_RF. destruct (Ratan2_polar nx ny (- x) (- y)) as [C S]. pose proof (Ratan2_range nx ny (- x) (- y)) as R. set (a := Ratan2 nx ny (- x) (- y)) in *. clearbody a.
  replace (- y * - y + - x * - x) with (x * x + y * y) in C, S by ring. pose proof (sqrt_pos (x * x + y * y)) as P. set (s := sqrt (x * x + y * y)) in *. clearbody s. set (d := turn (a * 180 / gpi)).
  exists s, d, (- s * sin (d / 180 * gpi)), (- s * cos (d / 180 * gpi)). rewrite client_x_RF, client_y_RF. do 4 (split; [reflexivity|]). pose proof (scale_sign a gpi ltac:(lra)) as SG. unfold d, turn. destruct (Rlt_dec (a * 180 / gpi) 0) as [L|L].
  - replace ((a * 180 / gpi + 360) / 180 * gpi) with (a + 2 * (gpi - PI) + 2 * INR 1 * PI) by (cbn [INR]; field; lra). rewrite sin_period, cos_period. destruct (shift_small a (2 * (gpi - PI)) ltac:(lra)) as [A B]. set (z := 2 * (gpi - PI)) in *. assert (Z : 0 <= z < 3 / 10000000) by (unfold z; lra). clearbody z.
    apply abs_le_inv in A. apply abs_le_inv in B. set (p := sin (a + z)) in *. set (q := cos (a + z)) in *. clearbody p q. split; apply Rabs_le; split; nra.
  - replace (a * 180 / gpi / 180 * gpi) with a by (field; lra). replace (- s * sin a - x) with 0 by lra. replace (- s * cos a - y) with 0 by lra. rewrite Rabs_R0. split; nra.
Qed.

(** humidity *)
Lemma r_cvalid_RF x : present_real x -> r_cvalid (RF x) = true.
Proof. intros H. unfold r_cvalid, Reqb. destruct (Req_EM_T x (-999)); [contradiction|reflexivity]. Qed.
Lemma r_cvalid_no v : (forall x, v = RF x -> ~ present_real x) -> r_cvalid v = false.
Proof. intros H. destruct v as [| | |x]; try reflexivity. unfold r_cvalid, Reqb. destruct (Req_EM_T x (-999)) as [E|E]; [reflexivity|]. exfalso. apply (H x eq_refl). exact E. Qed.
Close Scope R_scope.
Lemma client_table : client_ewt = ewt.
Proof. reflexivity. Qed.
Lemma client_ewt_at_eq t : client_ewt_at (Fin t) = ewt_at (Fin t).
Proof.
  unfold client_ewt_at, ewt_at. rewrite client_table. change (fq (17316 # 100)) with (Fin (Q2Qc (17316 # 100))). change (fq (2 # 10)) with (Fin (Q2Qc (2 # 10))). cbn [vsub vadd vneg vmul vltb fz].
  unfold fz. cbn [vltb]. fold (t - Q2Qc (17316 # 100))%Qc. rewrite qz_0.
  set (x := ((t - Q2Qc (17316 # 100)) * Q2Qc (2 # 10))%Qc).
  replace (if qltb x 0 then Fin 0 else if qltb (qz 39) x then Fin (qz 39) else Fin x) with (Fin (clampq x)) by (unfold clampq; destruct (qltb x 0); [reflexivity|destruct (qltb (qz 39) x); reflexivity]).
  pose proof (clampq_range x) as R. cbn [to_int bind]. rewrite ztrunc_floor by apply R. destruct (floor_range _ R) as (F & _). set (l := Qfloor (clampq x)) in *. clearbody l.
  unfold assert_. replace (0 <=? l) with true by (symmetry; apply Z.leb_le; lia). replace (l + 1 <? 41) with true by (symmetry; apply Z.ltb_lt; lia). reflexivity.
Qed.
Lemma compute_rh_eq t d : ~ missing (Fin t) -> ~ missing (Fin d) -> compute_rh (Fin t) (Fin d) = relative_humidity (Fin t) (Fin d).
Proof.
  intros Nt Nd. assert (Q : forall v, ~ missing v -> cvalid v = true) by (intros v N; destruct (cvalid v) eqn:E; [reflexivity|]; apply cvalid_missing in E; contradiction). apply Q in Nt. apply Q in Nd. unfold compute_rh, relative_humidity. rewrite Nt, Nd. cbn [is_valid andb]. destruct (vleb (Fin t) (Fin d)); [reflexivity|]. rewrite !client_ewt_at_eq. destruct (ewt_at (Fin t)); [|reflexivity..]. cbn [bind]. destruct (ewt_at (Fin d)); reflexivity.
Qed.
Lemma c206_library : (forall t d, ~ missing (Fin t) -> ~ missing (Fin d) -> compute_rh (Fin t) (Fin d) = relative_humidity (Fin t) (Fin d)) /\
  (forall t d, missing t \/ missing d -> compute_rh t d = Ok CMV).
Proof. split; [apply compute_rh_eq|]. intros t d [M|M]; apply cvalid_missing in M; unfold compute_rh; rewrite M, ?andb_false_r; reflexivity. Qed.
Lemma c206_rh : (forall t d, ~ missing (Fin t) -> ~ missing (Fin d) -> exists r, compute_rh (Fin t) (Fin d) = Ok (Fin r) /\ (0 <= r)%Qc /\ (r <= 1)%Qc /\ ((t <= d)%Qc -> r = 1%Qc) /\
     ((d < t)%Qc -> exists es e, saturation t es /\ saturation d e /\ (0 < es)%Qc /\ r = (e / es)%Qc)) /\
  (forall t d d' r r', ~ missing (Fin t) -> ~ missing (Fin d) -> ~ missing (Fin d') -> (d <= d')%Qc -> compute_rh (Fin t) (Fin d) = Ok (Fin r) -> compute_rh (Fin t) (Fin d') = Ok (Fin r') -> (r <= r')%Qc) /\
  (forall t t' d r r', ~ missing (Fin t) -> ~ missing (Fin t') -> ~ missing (Fin d) -> (t <= t')%Qc -> compute_rh (Fin t) (Fin d) = Ok (Fin r) -> compute_rh (Fin t') (Fin d) = Ok (Fin r') -> (r' <= r)%Qc).
Proof.
  destruct c67_relhum as (A & B & C & _). split; [|split].
  - intros t d Nt Nd. rewrite compute_rh_eq by auto. apply A.
  - intros t d d' r r' Nt Nd Nd' H. rewrite !compute_rh_eq by auto. apply B; auto.
  - intros t t' d r r' Nt Nt' Nd H. rewrite !compute_rh_eq by auto. apply C; auto.
Qed.
Open Scope R_scope.
Lemma rleb_RF_false u v : v < u -> rleb (RF u) (RF v) = false.
Proof. intros H. unfold rleb, rltb, reqb, Rltb, Reqb. destruct (Rlt_dec u v); [lra|]. destruct (Req_EM_T u v); [lra|reflexivity]. Qed.
Lemma c207_dewpoint : (forall t h, present_real t -> present_real h -> compute_dewpoint (RF t) (RF h) = dewpoint (RF t) (RF h)) /\
  (forall t h, (forall x, t = RF x -> ~ present_real x) \/ (forall x, h = RF x -> ~ present_real x) -> compute_dewpoint t h = RF (-999)).
Proof.
  split.
  - intros t h Ht Hh. unfold compute_dewpoint. rewrite !r_cvalid_RF by assumption. reflexivity.
  - intros t h [H|H]; apply r_cvalid_no in H; unfold compute_dewpoint; rewrite H, ?andb_false_r; reflexivity.
Qed.
Lemma c207_qnh : (forall p z, present_real p -> present_real z -> calc_qnh (RF z) (RF p) = qnh (RF p) (RF z)) /\
  (forall p z, p <> RF 0 -> (forall x, p = RF x -> ~ present_real x) \/ (forall x, z = RF x -> ~ present_real x) -> calc_qnh z p = RF (-999)).
Proof.
  split.
  - intros p z Hp Hz. unfold calc_qnh. rewrite !r_cvalid_RF by assumption. reflexivity.
  - intros p z Np H. unfold calc_qnh. assert (E : reqb p (rz 0) = false). { destruct p as [| | |x]; try reflexivity. unfold reqb, rz, Reqb. destruct (Req_EM_T x 0) as [->|]; [contradiction Np; reflexivity|reflexivity]. } rewrite E.
    destruct H as [H|H]; apply r_cvalid_no in H; rewrite H, ?andb_false_r; reflexivity.
Qed.
Lemma c207_wetbulb : (forall t p h w, present_real t -> present_real p -> present_real h -> wetbulb (RF t) (RF p) (RF h) = RF w -> compute_wetbulb (RF t) (RF p) (RF h) = RF w) /\
  (forall t p h, h <= 0 \/ t <= 3011 / 100 -> compute_wetbulb (RF t) (RF p) (RF h) = RF (-999)) /\
  (forall t p h, (forall x, t = RF x -> ~ present_real x) \/ (forall x, p = RF x -> ~ present_real x) \/ (forall x, h = RF x -> ~ present_real x) -> compute_wetbulb t p h = RF (-999)).
Proof.
  split; [|split].
  - intros t p h w Ht Hp Hh. unfold compute_wetbulb, wetbulb. fold (vapour (RF h) (rsub (RF t) (dec 27315 100))). fold (dew_of (vapour (RF h) (rsub (RF t) (dec 27315 100)))).
    destruct (rleb (rsub (RF t) (dec 27315 100)) (dec (-24304) 100)) eqn:E; [discriminate|]. destruct (rleb (RF h) (rz 0)) eqn:E2; [discriminate|]. cbn [orb].
    assert (V : r_cvalid (rsub (RF t) (dec 27315 100)) = true). { unfold dec in *. cbn [rsub radd rneg] in *. apply r_cvalid_RF. unfold present_real. intros C. rewrite C in E. unfold rleb, rltb, reqb, Rltb, Reqb in E. destruct (Rlt_dec (-999) (-24304 / 100)); [discriminate|lra]. }
    rewrite V, !r_cvalid_RF by assumption. unfold dec at 1. cbn [rsub radd rneg r_valid andb]. destruct (reqb _ (rz 0)); [discriminate|]. intros K. exact K.
  - intros t p h [H|H]; unfold compute_wetbulb.
    + replace (rleb (RF h) (rz 0)) with true; [rewrite orb_true_r; reflexivity|]. symmetry. unfold rleb, rz, rltb, reqb, Rltb, Reqb. destruct (Rlt_dec h 0); [reflexivity|]. destruct (Req_EM_T h 0); [reflexivity|lra].
    + replace (rleb (rsub (RF t) (dec 27315 100)) (dec (-24304) 100)) with true; [reflexivity|]. symmetry. unfold dec. cbn [rsub radd rneg]. unfold rleb, rltb, reqb, Rltb, Reqb. destruct (Rlt_dec (t + - (27315 / 100)) (-24304 / 100)); [reflexivity|]. destruct (Req_EM_T (t + - (27315 / 100)) (-24304 / 100)); [reflexivity|lra].
  - intros t p h H. unfold compute_wetbulb. destruct (rleb (rsub t (dec 27315 100)) (dec (-24304) 100)) eqn:E; [reflexivity|]. destruct (rleb h (rz 0)); [reflexivity|]. cbn [orb].
    destruct H as [H|[H|H]].
    + replace (r_cvalid (rsub t (dec 27315 100))) with false; [reflexivity|]. symmetry. destruct t as [| | |x]; try reflexivity. exfalso. assert (X : x = -999) by (destruct (Req_dec x (-999)); [assumption|exfalso; apply (H x eq_refl); assumption]).
      subst x. unfold dec in E. cbn [rsub radd rneg] in E. unfold rleb, rltb, reqb, Rltb, Reqb in E. destruct (Rlt_dec (-999 + - (27315 / 100)) (-24304 / 100)); [discriminate|lra].
    + apply r_cvalid_no in H. rewrite H, andb_false_r. reflexivity.
    + apply r_cvalid_no in H. rewrite H, andb_false_r. reflexivity.
Qed.
