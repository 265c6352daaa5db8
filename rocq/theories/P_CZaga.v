From Coq Require Import Permutation.
From Verif Require Import Base ListLib QcTac M_Stat S_Stat P_Stat P_Even M_COpt M_CUtil S_CUtil P_CUtil M_CCal S_CCal P_CCal M_CCal2 M_CGradient P_NeighAll P_CorrPts M_CDist S_CDist P_CDist P_CGauss P_CBct.
Local Open Scope Z_scope.

Lemma sub_ne x : (x < 1)%Qc -> (1 - x <> 0)%Qc.
Proof. intros H K. qlra. Qed.
Lemma p0_range (g : Qc) : (0 < g)%Qc -> (0 < g / (g + 1) < 1)%Qc.
Proof. intros H. assert (P : (0 < g + 1)%Qc) by qlra. split; apply Qcnot_le_lt; intros K; [apply qdiv_le_iff in K; auto|apply qle_div_iff in K; auto]; qlra. Qed.
Lemma qdiv_pos a b : (0 < a -> 0 < b -> 0 < a / b)%Qc.
Proof. intros A B. apply Qcnot_le_lt. intros K. apply qdiv_le_iff in K; auto. qlra. Qed.
Lemma mul_pos a b : (0 < a -> 0 < b -> 0 < a * b)%Qc.
Proof. intros. qnra. Qed.
Lemma zaga_parameters_range ex pw par mean frac P0 shape scale : positive ex -> zaga_parameters ex pw par mean frac = Some (P0, shape, scale) -> (0 < P0 < 1)%Qc /\ (0 < shape)%Qc /\ (0 < scale)%Qc.
Proof.
  intros HP H. unfold zaga_parameters in H. destruct (known par) as [[|mua [|mub [|sa [|sb [|a [|b [|c [|d l]]]]]]]]|]; try discriminate. cbv zeta in H. destruct (Qc_eq_dec _ missing_number); [discriminate|]. injection H as <- <- <-.
  split; [apply p0_range, HP|]. pose proof (HP (sa + sb * mean)%Qc). pose proof (HP (mua + mub * pw mean (Q2Qc (1 # 3)))%Qc). split; [apply qdiv_pos; [reflexivity|apply mul_pos; auto]|repeat apply mul_pos; auto].
Qed.
(** the law is consistent: quantiles and probabilities belong to each other *)
Lemma zaga_consistent gc gq P0 shape scale : gamma_functions gc gq -> (0 < P0 < 1)%Qc -> (0 < shape)%Qc -> (0 < scale)%Qc ->
  (forall x, 0 <= zaga_probability gc P0 shape scale x <= 1)%Qc /\ (forall x y, (x <= y)%Qc -> (zaga_probability gc P0 shape scale x <= zaga_probability gc P0 shape scale y)%Qc) /\
  (forall p, (0 <= p < 1)%Qc -> (0 <= zaga_quantile gq P0 shape scale p)%Qc) /\
  (forall p x, (0 < p < 1)%Qc -> (zaga_quantile gq P0 shape scale p <= x <-> p <= zaga_probability gc P0 shape scale x)%Qc).
Proof.
  intros HG [HP1 HP2] Hs Hc. destruct (HG shape scale Hs Hc) as (G1 & G2 & G3).
  assert (D : (0 < 1 - P0)%Qc) by qlra.
  assert (CONT : forall p, (P0 <= p < 1)%Qc -> (0 <= (p - P0) / (1 - P0) < 1)%Qc).
  { intros p [A B]. split; [apply qdiv_nonneg; qlra|]. apply Qcnot_le_lt. intros K. apply qle_div_iff in K; auto. qlra. }
  split; [|split; [|split]].
  - intros x. unfold zaga_probability. destruct (Qclt_le_dec x 0); [split; discriminate|]. destruct (Qc_eq_dec x 0); [split; qlra|]. assert (X : (0 < x)%Qc). { apply Qcnot_le_lt. intros K. apply n. apply Qcle_antisym; auto. } destruct (G1 x X) as [A B]. set (g := gc shape scale x) in *. clearbody g. split; qnra.
  - intros x y L. unfold zaga_probability. assert (PP : forall z, z <> 0%Qc -> (0 <= z)%Qc -> (0 < z)%Qc). { intros z N Z. apply Qcnot_le_lt. intros K. apply N. apply Qcle_antisym; auto. }
    destruct (Qclt_le_dec x 0) as [X|X]; destruct (Qclt_le_dec y 0) as [Y|Y]; try (exfalso; qlra); [qlra|destruct (Qc_eq_dec y 0) as [Y0|Y0]|].
    + qlra.
    + destruct (G1 y (PP y Y0 Y)) as [A B]. set (g := gc shape scale y) in *. clearbody g. qnra.
    + destruct (Qc_eq_dec x 0) as [X0|X0]; destruct (Qc_eq_dec y 0) as [Y0|Y0]; [qlra| | |].
      * destruct (G1 y (PP y Y0 Y)) as [A B]. set (g := gc shape scale y) in *. clearbody g. qnra.
      * exfalso. apply X0. apply Qcle_antisym; auto. rewrite <- Y0. auto.
      * pose proof (G2 x y (conj (PP x X0 X) L)) as M. set (g := gc shape scale x) in *. set (h := gc shape scale y) in *. clearbody g h. qnra.
  - intros p [A B]. unfold zaga_quantile. destruct (Qclt_le_dec p P0); [qlra|]. apply G3, CONT. auto.
  - intros p x [A B]. unfold zaga_quantile, zaga_probability. destruct (Qclt_le_dec x 0) as [X|X].
    { split; [|intros; exfalso; qlra]. intros K. exfalso. destruct (Qclt_le_dec p P0); [qlra|]. destruct (G3 _ (CONT p (conj q B))) as (N & _). qlra. }
    destruct (Qclt_le_dec p P0) as [L|L].
    { split; [|auto]. intros _. destruct (Qc_eq_dec x 0); [qlra|]. assert (XP : (0 < x)%Qc). { apply Qcnot_le_lt. intros K. apply n. apply Qcle_antisym; auto. } destruct (G1 x XP) as [U V]. set (g := gc shape scale x) in *. clearbody g. qnra. }
    destruct (G3 _ (CONT p (conj L B))) as (N & Z0 & GX). assert (EQ : ((p - P0) / (1 - P0) * (1 - P0) = p - P0)%Qc) by (field; apply sub_ne; auto). destruct (Qc_eq_dec x 0) as [->|X0].
    + split; intros K; [apply Z0 in K|apply Z0]; set (c := ((p - P0) / (1 - P0))%Qc) in *; clearbody c; qnra.
    + assert (XP : (0 < x)%Qc) by (apply Qcnot_le_lt; intros K; apply X0, Qcle_antisym; auto). split; intros K; [apply (GX x XP) in K|apply (GX x XP)]; set (c := ((p - P0) / (1 - P0))%Qc) in *; set (g := gc shape scale x) in *; clearbody c g; qnra.
Qed.
(** the functions of the code *)
Lemma vsub_F x y : vsub (Fin x) (Fin y) = Fin (x - y)%Qc. Proof. reflexivity. Qed.
Lemma vltb_false x y : (y <= x)%Qc -> vltb (Fin x) (Fin y) = false.
Proof. intros. cbn. destruct (qltb_spec x y); auto. exfalso. qlra. Qed.
Lemma vltb_true x y : (x < y)%Qc -> vltb (Fin x) (Fin y) = true.
Proof. intros. cbn. destruct (qltb_spec x y); auto. Qed.
Lemma vleb_pos x : (0 < x)%Qc -> vleb (Fin x) (fz 0) = false.
Proof. intros. unfold vleb, fz. rewrite qz_0, vltb_false by qlra. cbn. destruct (qeqb_spec x 0); auto. exfalso. qlra. Qed.
Lemma cvalid_nonneg x : (0 <= x)%Qc -> cvalid (Fin x) = true.
Proof. intros. apply cvalid_Fin, nonneg_not_missing. auto. Qed.
Section Code.
Variables (ex : val -> val) (pw : val -> val -> val) (exq : Qc -> Qc) (pwq : Qc -> Qc -> Qc).
Hypothesis HX : on_numbers1 ex exq.
Hypothesis HW : on_nonneg2 pw pwq.
Hypothesis HP : positive exq.
Variables (m fr : Qc) (par : vec).
Hypothesis Hm : (0 <= m)%Qc.
Hypothesis Hf : (0 <= fr <= 1)%Qc.
Hypothesis HL : 8 <= zlen par.
Lemma zaga_p0_ok : par_valid par = true -> exists v, zaga_p0 ex pw (Fin m) (Fin fr) par = Ok v /\
  match zaga_parameters exq pwq par m fr with Some (P0, shape, scale) => v = Fin P0 /\ zaga_gamma ex pw (Fin m) par = Ok (Some (Fin shape, Fin scale)) | None => v = CMV end.
Proof.
  intros V. unfold zaga_p0, zaga_parameters. unfold fz. rewrite qz_0, qz_1. rewrite !cvalid_nonneg by qlra. rewrite !vltb_false by qlra. rewrite V. cbn [negb orb].
  destruct (known par) as [l|] eqn:K; [|apply known_none in K; congruence]. apply known_some in K as [EP NM]. revert HL. rewrite EP, zlen_map. intros HL'. rewrite !par_get_nth by lia. cbn [bind].
  destruct l as [|mua [|mub [|sa [|sb [|a [|b [|c [|d l]]]]]]]]; rewrite ?zlen_cons in HL'; try (change (zlen (@nil Qc)) with 0 in HL'; lia).
  change (qnth (mua :: mub :: sa :: sb :: a :: b :: c :: d :: l) 4) with a. change (qnth (mua :: mub :: sa :: sb :: a :: b :: c :: d :: l) 5) with b. change (qnth (mua :: mub :: sa :: sb :: a :: b :: c :: d :: l) 6) with c. change (qnth (mua :: mub :: sa :: sb :: a :: b :: c :: d :: l) 7) with d.
  unfold fq. rewrite (HW m (Q2Qc (1 # 3)) Hm). rewrite !vmul_F, !vadd_F. cbv zeta. set (root := pwq m (Q2Qc (1 # 3))) in *. set (logit := (a + b * m + c * fr + d * root)%Qc). clearbody logit. unfold inv_logit.
  eexists. split; [reflexivity|]. destruct (Qc_eq_dec logit missing_number) as [->|N]; [reflexivity|]. rewrite (cvalid_Fin logit N). rewrite HX. unfold fz. rewrite qz_1, vadd_F. pose proof (HP logit) as LP. rewrite vdiv_Fin by qlra. split; [reflexivity|].
  unfold zaga_gamma. rewrite !par_get_nth by (rewrite !zlen_cons; lia). cbn [bind].
  change (qnth (mua :: mub :: sa :: sb :: a :: b :: c :: d :: l) 0) with mua. change (qnth (mua :: mub :: sa :: sb :: a :: b :: c :: d :: l) 1) with mub. change (qnth (mua :: mub :: sa :: sb :: a :: b :: c :: d :: l) 2) with sa. change (qnth (mua :: mub :: sa :: sb :: a :: b :: c :: d :: l) 3) with sb.
  unfold fq. rewrite (HW m (Q2Qc (1 # 3)) Hm). fold root. rewrite !vmul_F, !vadd_F. rewrite !HX. set (mu := exq (mua + mub * root)%Qc). set (sigma := exq (sa + sb * m)%Qc). assert (MP : (0 < mu)%Qc) by apply HP. assert (SP : (0 < sigma)%Qc) by apply HP. clearbody mu sigma.
  rewrite !vleb_pos by auto. cbn [orb]. rewrite !cvalid_nonneg by qlra. cbn [negb orb]. rewrite !vmul_F. pose proof (mul_pos _ _ SP SP) as SS. unfold fz. rewrite qz_1, vdiv_Fin by qlra. rewrite (cvalid_nonneg (1 / (sigma * sigma))) by (apply qdiv_nonneg; [discriminate|auto]). rewrite cvalid_nonneg by (pose proof (mul_pos _ _ SS MP); qlra). reflexivity.
Qed.
Lemma zaga_inv_ok gq gqq gcq p : on_numbers3 gq gqq -> gamma_functions gcq gqq -> (0 < p < 1)%Qc ->
  zaga_inv ex pw gq (Fin m) (Fin fr) par (Fin p) = Ok (zaga_law exq pwq gqq par m fr p).
Proof.
  intros HQ HG Hp. unfold zaga_inv, zaga_law. unfold fz. rewrite qz_0, qz_1. rewrite (vltb_false p) by qlra. unfold vleb at 1. rewrite vltb_false by qlra. cbn [veqb]. destruct (qeqb_spec 1 p) as [C|C]; [exfalso; qlra|]. cbn [orb].
  rewrite !cvalid_nonneg by qlra. cbn [negb orb]. rewrite !vltb_false by qlra. cbn [orb]. destruct (par_valid par) eqn:V; cbn [negb].
  - destruct (qeqb_spec p 0) as [C0|C0]; [exfalso; qlra|]. destruct (zaga_p0_ok V) as (v & Ev & M). rewrite Ev. cbn [bind]. destruct (zaga_parameters exq pwq par m fr) as [[[P0 shape] scale]|] eqn:Z.
    + destruct M as [-> GM]. destruct (zaga_parameters_range exq pwq par m fr P0 shape scale HP Z) as (P1 & S1 & S2). rewrite (cvalid_nonneg P0) by qlra. cbn [negb]. unfold zaga_quantile. destruct (Qclt_le_dec p P0) as [L|L].
      * rewrite vltb_true by auto. reflexivity.
      * rewrite vltb_false by auto. rewrite !vsub_F, vdiv_Fin by qlra. rewrite GM. cbn [bind]. cbv zeta. rewrite !HQ. rewrite cvalid_nonneg; [reflexivity|]. destruct (zaga_consistent gcq gqq P0 shape scale HG P1 S1 S2) as (_ & _ & N & _). assert (PR : (0 <= p < 1)%Qc) by (split; qlra). specialize (N p PR). unfold zaga_quantile in N. destruct (Qclt_le_dec p P0); [exfalso; qlra|exact N].
    + subst v. rewrite cvalid_MV. reflexivity.
  - unfold zaga_parameters. destruct (known par) as [l|] eqn:K; [|reflexivity]. apply known_some in K as [EP NM]. rewrite EP, (known_valid l NM) in V. discriminate.
Qed.
Lemma zaga_cdf_ok gc gcq gqq x : on_numbers3 gc gcq -> gamma_functions gcq gqq -> (0 <= x)%Qc ->
  zaga_cdf ex pw gc (Fin m) (Fin fr) par (Fin x) = Ok (match zaga_parameters exq pwq par m fr with Some (P0, shape, scale) => Fin (zaga_probability gcq P0 shape scale x) | None => Fin missing_number end).
Proof.
  intros HC HG Hx. unfold zaga_cdf, zaga_law. unfold fz. rewrite qz_0, qz_1. rewrite !cvalid_nonneg by qlra. cbn [negb orb]. rewrite !vltb_false by qlra. cbn [orb]. destruct (par_valid par) eqn:V; cbn [negb].
  - destruct (zaga_p0_ok V) as (v & Ev & M). rewrite Ev. cbn [bind]. destruct (zaga_parameters exq pwq par m fr) as [[[P0 shape] scale]|] eqn:Z.
    + destruct M as [-> GM]. destruct (zaga_parameters_range exq pwq par m fr P0 shape scale HP Z) as (P1 & S1 & S2). rewrite (cvalid_nonneg P0) by qlra. cbn [negb]. destruct (zaga_consistent gcq gqq P0 shape scale HG P1 S1 S2) as (R & _). specialize (R x). unfold zaga_probability in *. destruct (Qclt_le_dec x 0) as [L|L]; [exfalso; qlra|]. cbn [veqb].
      destruct (qeqb_spec x 0) as [X0|X0]; destruct (Qc_eq_dec x 0) as [X0'|X0']; try contradiction; [reflexivity|]. rewrite GM. cbn [bind]. cbv zeta. rewrite !HC, !vsub_F, !vmul_F, !vadd_F. set (c := (P0 + (1 - P0) * gcq shape scale x)%Qc) in *. clearbody c. rewrite cvalid_nonneg by qlra. cbn [negb].
      rewrite !vleb_Fin. destruct (qleb_spec c 1) as [U|U]; [|exfalso; apply U, R]. cbn [assert_ bind]. destruct (qleb_spec 0 c) as [W|W]; [|exfalso; apply W, R]. reflexivity.
    + subst v. rewrite cvalid_MV. reflexivity.
  - unfold zaga_parameters. destruct (known par) as [l|] eqn:K; [|reflexivity]. apply known_some in K as [EP NM]. rewrite EP, (known_valid l NM) in V. discriminate.
Qed.
End Code.
(** sums over the time window *)
Definition win_step (fs : list field) (i j e : Z) : val -> Z -> res val := fun total tt => value <- get4 fs tt i j e ;; Ok (if cvalid total && cvalid value then vadd total value else CMV).
Lemma win_sum fs i j e (s : Z -> Qc) l : (forall tt, In tt l -> get4 fs tt i j e = Ok (Fin (s tt)) /\ s tt <> missing_number /\ (0 <= s tt)%Qc) -> forall T, (0 <= T)%Qc ->
  foldM (win_step fs i j e) (Fin T) l = Ok (Fin (T + qsum (map s l))%Qc) /\ (0 <= qsum (map s l))%Qc.
Proof.
  induction l as [|t l IH]; intros H T HT; cbn [foldM map qsum].
  - rewrite Qcplus_0_r. split; [reflexivity|qlra].
  - destruct (H t (or_introl eq_refl)) as (G & N & P). unfold win_step at 1. rewrite G. cbn [bind]. rewrite (cvalid_nonneg T), (cvalid_Fin _ N) by auto. cbn [andb vadd].
    destruct (IH (fun tt Ht => H tt (or_intror Ht)) (T + s t)%Qc) as [E NN]; [qlra|]. rewrite E. split; [f_equal; f_equal; ring|qlra].
Qed.
Lemma win_CMV fs i j e l : (forall tt, In tt l -> exists v, get4 fs tt i j e = Ok v) -> foldM (win_step fs i j e) CMV l = Ok CMV.
Proof. induction l as [|t l IH]; intros H; cbn [foldM]; [reflexivity|]. destruct (H t (or_introl eq_refl)) as (v & G). unfold win_step at 1. rewrite G. cbn [bind]. rewrite cvalid_MV. cbn [andb]. apply IH. intros. apply H. right. auto. Qed.
Lemma win_missing fs i j e l : (forall tt, In tt l -> exists v, get4 fs tt i j e = Ok v) -> (exists tt v, In tt l /\ get4 fs tt i j e = Ok v /\ missing v) -> forall T, foldM (win_step fs i j e) T l = Ok CMV.
Proof.
  induction l as [|t l IH]; intros H (tt & v & Hin & G & M) T; [destruct Hin|]. cbn [foldM]. destruct Hin as [->|Hin].
  - unfold win_step at 1. rewrite G. cbn [bind]. apply cvalid_missing in M. rewrite M, andb_false_r. apply win_CMV. intros. apply H. right. auto.
  - destruct (H t (or_introl eq_refl)) as (w & G'). unfold win_step at 1. rewrite G'. cbn [bind]. apply IH; [intros; apply H; right; auto|]. exists tt, v. auto.
Qed.
(** sums over the neighbourhood *)
Definition hood_step (thr : val) (fs : list field) (w t : Z) : val * val * Z -> Z * Z * Z -> res (val * val * Z) :=
  fun st c => let '(ensMean, ensFrac, counter) := st in let '(ii, jj, e) := c in
    total <- window_total fs w t ii jj e ;;
    Ok (if cvalid total && cvalid ensMean then (vadd ensMean total, vadd ensFrac (fz (if vleb total thr then 1 else 0)), counter + 1) else (CMV, CMV, counter)).
Definition at_most (thr : Qc) (l : list Qc) : Z := zlen (filter (fun q => if Qclt_le_dec thr q then false else true) l).
Lemma at_most_cons thr q l : at_most thr (q :: l) = (if Qclt_le_dec thr q then 0 else 1) + at_most thr l.
Proof. unfold at_most. cbn [filter]. destruct (Qclt_le_dec thr q); [lia|rewrite zlen_cons; lia]. Qed.
Lemma hood_sum thr fs w t (a : Z * Z * Z -> Qc) l : (forall y x e, In (y, x, e) l -> window_total fs w t y x e = Ok (Fin (a (y, x, e))) /\ (0 <= a (y, x, e))%Qc) -> forall S k n, (0 <= S)%Qc ->
  foldM (hood_step (Fin thr) fs w t) (Fin S, Fin (qz k), n) l = Ok (Fin (S + qsum (map a l))%Qc, Fin (qz (k + at_most thr (map a l))), n + zlen l) /\ (0 <= qsum (map a l))%Qc.
Proof.
  induction l as [|[[y x] e] l IH]; intros H S k n HS; cbn [foldM map qsum].
  - change (at_most thr []) with 0. change (zlen (@nil (Z * Z * Z))) with 0. rewrite Qcplus_0_r, !Z.add_0_r. split; [reflexivity|qlra].
  - destruct (H y x e (or_introl eq_refl)) as [W P]. unfold hood_step at 1. rewrite W. cbn [bind]. rewrite !cvalid_nonneg by auto. cbn [andb]. rewrite vadd_F, vleb_Fin. set (q := a (y, x, e)) in *.
    assert (FR : vadd (Fin (qz k)) (fz (if qleb q thr then 1 else 0)) = Fin (qz (k + (if Qclt_le_dec thr q then 0 else 1)))).
    { unfold fz. rewrite vadd_F, <- qz_add. destruct (qleb_spec q thr); destruct (Qclt_le_dec thr q); try reflexivity; exfalso; [qlra|contradiction]. }
    rewrite FR. destruct (IH (fun y x e K => H y x e (or_intror K)) (S + q)%Qc (k + (if Qclt_le_dec thr q then 0 else 1)) (n + 1)) as [E N]; [qlra|]. rewrite E. split; [|qlra]. rewrite at_most_cons, zlen_cons. f_equal. f_equal; [f_equal; [f_equal; ring|f_equal; f_equal; lia]|lia].
Qed.
Lemma hood_CMV thr fs w t l : (forall y x e, In (y, x, e) l -> exists v, window_total fs w t y x e = Ok v) -> forall fr n, exists fr' n', foldM (hood_step thr fs w t) (CMV, fr, n) l = Ok (CMV, fr', n').
Proof.
  induction l as [|[[y x] e] l IH]; intros H fr n; cbn [foldM]; [eauto|]. destruct (H y x e (or_introl eq_refl)) as (v & G). unfold hood_step at 1. rewrite G. cbn [bind]. rewrite cvalid_MV, andb_false_r. apply IH. intros. apply H. right. auto.
Qed.
Lemma hood_missing thr fs w t l : (forall y x e, In (y, x, e) l -> exists v, window_total fs w t y x e = Ok v) -> (exists y x e v, In (y, x, e) l /\ window_total fs w t y x e = Ok v /\ missing v) ->
  forall st, exists fr' n', foldM (hood_step thr fs w t) st l = Ok (CMV, fr', n').
Proof.
  induction l as [|[[y x] e] l IH]; intros H (y' & x' & e' & v & Hin & G & M) [[S fr] n]; [destruct Hin|]. cbn [foldM]. destruct Hin as [[= -> -> ->]|Hin].
  - unfold hood_step at 1. rewrite G. cbn [bind]. apply cvalid_missing in M. rewrite M. cbn [andb]. apply hood_CMV. intros. apply H. right. auto.
  - destruct (H y x e (or_introl eq_refl)) as (u & G'). unfold hood_step at 1. rewrite G'. cbn [bind]. apply IH; [intros; apply H; right; auto|]. exists y', x', e', v. auto.
Qed.
Lemma in_around d size i j y x e : 0 <= size -> 0 <= i < d_y d -> 0 <= j < d_x d -> (In (y, x, e) (around d size i j) <-> within d y x e /\ Z.abs (y - i) <= size /\ Z.abs (x - j) <= size).
Proof.
  intros Hs Hi Hj. unfold around, square, within. rewrite in_flat_map. split.
  - intros (e' & He & K). apply in_map_iff in K as ([a b] & [= <- <- <-] & K). cbn [fst snd] in *. apply in_flat_map in K as (y' & Hy & K). apply in_map_iff in K as (x' & [= <- <-] & Hx). apply in_zrange in He, Hy, Hx. lia.
  - intros ((Hy & Hx & He) & Dy & Dx). exists e. split; [apply in_zrange; lia|]. apply in_map_iff. exists (y, x). split; [reflexivity|]. apply in_flat_map. exists y. split; [apply in_zrange; lia|]. apply in_map_iff. exists x. split; [reflexivity|apply in_zrange; lia].
Qed.
Lemma NoDup_around d size i j : NoDup (around d size i j).
Proof.
  unfold around. apply NoDup_flat_map; [apply NoDup_zrange| |].
  - intros e _. apply FinFun.Injective_map_NoDup; [intros [a b] [a' b']; cbn; congruence|]. unfold square. apply NoDup_flat_map; [apply NoDup_zrange| |].
    + intros y _. apply FinFun.Injective_map_NoDup; [intros a b; congruence|apply NoDup_zrange].
    + intros y y' [u v] _ _ H1 H2. apply in_map_iff in H1 as (? & [= <- <-] & _). apply in_map_iff in H2 as (? & [= <- <-] & _). reflexivity.
  - intros e e' [[u v] k] _ _ H1 H2. apply in_map_iff in H1 as (? & K1 & _). apply in_map_iff in H2 as (? & K2 & _). congruence.
Qed.
Lemma hood_around d size y x l : 0 <= size -> 0 <= y < d_y d -> 0 <= x < d_x d -> hood d size y x l -> Permutation l (around d size y x).
Proof. intros Hs Hy Hx [ND HI]. apply NoDup_Permutation; [auto|apply NoDup_around|]. intros [[y' x'] e]. rewrite HI, in_around by auto. tauto. Qed.
Lemma around_ne d size y x : 0 <= size -> 0 < d_e d -> 0 <= y < d_y d -> 0 <= x < d_x d -> around d size y x <> [].
Proof. intros Hs He Hy Hx K. assert (I : In (y, x, 0) (around d size y x)) by (apply in_around; auto; unfold within; lia). rewrite K in I. destruct I. Qed.
Lemma at_most_perm thr l m : Permutation l m -> at_most thr l = at_most thr m.
Proof. intros H. unfold at_most, zlen. f_equal. induction H; cbn; auto; repeat destruct (Qclt_le_dec _ _); cbn; congruence. Qed.
Lemma fraction_eq thr l : fraction thr l = (qz (at_most thr l) / qlen l)%Qc. Proof. reflexivity. Qed.
Lemma fraction_range thr l : l <> [] -> (0 <= fraction thr l <= 1)%Qc.
Proof.
  intros N. rewrite fraction_eq. assert (P : (0 < qlen l)%Qc). { rewrite zlen_qlen, <- qz_0. apply qz_lt. destruct l; [congruence|rewrite zlen_cons; pose proof (zlen_nonneg l); lia]. }
  pose proof (zlen_filter (fun q => if Qclt_le_dec thr q then false else true) l) as [A B]. fold (at_most thr l) in A, B. split; [apply qdiv_nonneg; auto; rewrite <- qz_0; apply qz_le; auto|]. apply qdiv_le_iff; auto. rewrite Qcmult_1_l, zlen_qlen. apply qz_le. auto.
Qed.
(** the predictors *)
Lemma predictors_ok o d fs t y x (a : Z * Z * Z -> Qc) l thr mx : z_frac o = Fin thr -> z_max o = Fin mx -> (0 < mx)%Qc -> 0 <= z_size o -> 0 < d_e d -> 0 <= y < d_y d -> 0 <= x < d_x d -> hood d (z_size o) y x l ->
  (forall y' x' e, In (y', x', e) l -> window_total fs (z_window o) t y' x' e = Ok (Fin (a (y', x', e))) /\ (0 <= a (y', x', e))%Qc) ->
  zaga_predictors o d fs t y x = Ok (Some (Fin (capped mx (qmean (map a l))), Fin (fraction thr (map a l)))) /\ (0 <= qmean (map a l))%Qc /\ l <> [].
Proof.
  intros HT HM Hmx Hs He Hy Hx HH HA. pose proof (hood_around d (z_size o) y x l Hs Hy Hx HH) as PM. pose proof (around_ne d (z_size o) y x Hs He Hy Hx) as NE.
  unfold zaga_predictors, zaga_sums. rewrite HT. unfold fz at 1 2. rewrite <- qz_0. change (Fin (Q2Qc 0)) with (Fin (qz 0)).
  assert (HA' : forall y' x' e, In (y', x', e) (around d (z_size o) y x) -> window_total fs (z_window o) t y' x' e = Ok (Fin (a (y', x', e))) /\ (0 <= a (y', x', e))%Qc).
  { intros y' x' e K. apply HA. apply Permutation_sym in PM. apply (Permutation_in _ PM K). }
  destruct (hood_sum thr fs (z_window o) t a (around d (z_size o) y x) HA' (qz 0) 0 0) as [ES NS]; [apply Qcle_refl|].
  match goal with |- context [foldM ?f ?s ?l0] => change (foldM f s l0) with (foldM (hood_step (Fin thr) fs (z_window o) t) (Fin (qz 0), Fin (qz 0), 0) l0) end. rewrite ES. cbn [bind]. rewrite qz_0, Qcplus_0_l, !Z.add_0_l.
  assert (PL : 0 < zlen (around d (z_size o) y x)) by (destruct (around d (z_size o) y x); [congruence|rewrite zlen_cons; pose proof (zlen_nonneg l0); lia]).
  rewrite cvalid_nonneg by auto. destruct (Z.ltb_spec 0 (zlen (around d (z_size o) y x))); [|lia]. cbn [andb]. unfold fz. rewrite !vdiv_Fin by (apply qz_ne; lia). rewrite HM, (cvalid_nonneg mx) by qlra. cbn [andb vltb].
  assert (PM' : Permutation (map a l) (map a (around d (z_size o) y x))) by (apply Permutation_map; auto).
  assert (ME : (qsum (map a (around d (z_size o) y x)) / qz (zlen (around d (z_size o) y x)) = qmean (map a l))%Qc). { rewrite (qmean_perm _ _ PM'). unfold qmean. rewrite zlen_qlen, zlen_map. reflexivity. }
  assert (FE : (qz (at_most thr (map a (around d (z_size o) y x))) / qz (zlen (around d (z_size o) y x)) = fraction thr (map a l))%Qc). { rewrite fraction_eq, (at_most_perm thr _ _ PM'). f_equal. rewrite zlen_qlen. f_equal. apply Permutation_length in PM. rewrite zlen_map. unfold zlen. congruence. }
  rewrite ME, FE. split.
  - unfold capped. destruct (qltb_spec mx (qmean (map a l))) as [T|T]; destruct (Qclt_le_dec mx (qmean (map a l))) as [T'|T']; try reflexivity; exfalso; [qlra|contradiction].
  - split; [rewrite <- ME; apply qdiv_nonneg; auto; rewrite <- qz_0; apply qz_lt; lia|]. intros ->. apply Permutation_nil in PM. congruence.
Qed.
Lemma predictors_missing o d fs t y x : 0 <= z_size o -> 0 <= y < d_y d -> 0 <= x < d_x d ->
  (forall y' x' e, within d y' x' e -> exists v, window_total fs (z_window o) t y' x' e = Ok v) ->
  (exists y' x' e v, within d y' x' e /\ Z.abs (y' - y) <= z_size o /\ Z.abs (x' - x) <= z_size o /\ window_total fs (z_window o) t y' x' e = Ok v /\ missing v) ->
  zaga_predictors o d fs t y x = Ok None.
Proof.
  intros Hs Hy Hx HA (y' & x' & e & v & W & D1 & D2 & G & M). unfold zaga_predictors, zaga_sums.
  destruct (hood_missing (z_frac o) fs (z_window o) t (around d (z_size o) y x)) with (st := (fz 0, fz 0, 0)) as (fr & n & ES).
  - intros a b c K. apply in_around in K; auto. apply HA. tauto.
  - exists y', x', e, v. split; [apply in_around; auto|auto].
  - match goal with |- context [foldM ?f ?s ?l0] => change (foldM f s l0) with (foldM (hood_step (z_frac o) fs (z_window o) t) s l0) end. rewrite ES. cbn [bind]. rewrite cvalid_MV. reflexivity.
Qed.
Lemma amount_window fs w t y x e q : no_negative fs -> amount fs w t (y, x, e) q -> window_total fs w t y x e = Ok (Fin q) /\ (0 <= q)%Qc.
Proof.
  intros NN (s & HS & ->). cbn [fst snd] in HS. unfold window_total. destruct (win_sum fs y x e s (zrange (t - w + 1) (t + 1))) with (T := 0%Qc) as [E N]; [|apply Qcle_refl|].
  - intros tt Ht. apply in_zrange in Ht. destruct (HS tt) as [El Nm]; [lia|]. split; [apply element_get; auto|]. split; [auto|]. apply (NN tt y x e (s tt) El Nm).
  - rewrite Qcplus_0_l in E. split; [exact E|exact N].
Qed.
Lemma window_total_some d fs w t y x e : shaped d fs -> w <= t + 1 -> t < d_t d -> within d y x e -> exists v, window_total fs w t y x e = Ok v.
Proof.
  intros H H1 H2 W. unfold window_total.
  assert (K : forall l T, (forall tt, In tt l -> 0 <= tt < d_t d) -> exists v, foldM (win_step fs y x e) T l = Ok v).
  { induction l as [|tt l IH]; intros T HI; cbn [foldM]; [eauto|]. destruct (shaped_elem d fs tt y x e H (HI tt (or_introl eq_refl)) W) as (v & _ & G). unfold win_step at 1. rewrite G. cbn [bind]. apply IH. intros. apply HI. right. auto. }
  apply K. intros tt Ht. apply in_zrange in Ht. lia.
Qed.
Lemma gap_window d fs size w t y x : shaped d fs -> w <= t + 1 -> t < d_t d -> gap d fs size w t y x ->
  exists y' x' e v, within d y' x' e /\ Z.abs (y' - y) <= size /\ Z.abs (x' - x) <= size /\ window_total fs w t y' x' e = Ok v /\ missing v.
Proof.
  intros H H1 H2 (y' & x' & e & tt & v & W & D1 & D2 & Ht & El & M). exists y', x', e, CMV. split; [auto|]. split; [auto|]. split; [auto|]. split; [|reflexivity].
  unfold window_total. apply (win_missing fs y' x' e (zrange (t - w + 1) (t + 1))).
  - intros t' Ht'. apply in_zrange in Ht'. destruct (shaped_elem d fs t' y' x' e H) as (u & _ & G); [lia|auto|eauto].
  - exists tt, v. split; [apply in_zrange; lia|]. split; [apply element_get; auto|auto].
Qed.
