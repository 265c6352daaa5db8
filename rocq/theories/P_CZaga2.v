From Coq Require Import Permutation.
From Verif Require Import Base ListLib QcTac M_Stat S_Stat P_Stat P_Even M_COpt M_CUtil S_CUtil P_CUtil M_CCal S_CCal P_CCal M_CCal2 M_CGradient P_CGrad P_Slice P_NeighAll P_CorrPts P_CQq P_CDown M_CDist S_CDist P_CDist P_CGauss P_CBct P_CZaga P_CPop.
Local Open Scope Z_scope.

(** without the time window the predictors depend only on the field of the time *)
Definition zaga_step (sp : list (val * Z) -> list (val * Z)) ex pw gq o (pars : Z -> Z -> vec) d (f : field) (c : Z * Z) : res field :=
  let '(i, j) := c in p <- zaga_predictors o d [f] 0 i j ;;
  match p with Some (ensMean, ensFrac) => replace_members sp d (zaga_inv ex pw gq ensMean ensFrac (pars i j)) f i j | None => keep_members d f i j end.
Lemma window_single fs t f y x e : znth fs t = Ok f -> window_total fs 1 t y x e = window_total [f] 1 0 y x e.
Proof. intros H. unfold window_total. replace (zrange (t - 1 + 1) (t + 1)) with [t] by (rewrite zrange_cons by lia; rewrite zrange_nil by lia; f_equal; lia). change (zrange (0 - 1 + 1) (0 + 1)) with [0]. cbn [foldM]. unfold get4. rewrite H. reflexivity. Qed.
Lemma predictors_single o d fs t f i j : z_6h o = false -> znth fs t = Ok f -> zaga_predictors o d fs t i j = zaga_predictors o d [f] 0 i j.
Proof.
  intros H6 H. unfold zaga_predictors, zaga_sums, z_window. rewrite H6. f_equal. apply foldM_ext_in. intros [[m fr] n] [[ii jj] e] _. rewrite (window_single fs t f) by auto. reflexivity.
Qed.
Lemma lset_lset {A} (l : list A) n v w : lset (lset l n v) n w = lset l n w.
Proof. revert n. induction l as [|x l IH]; intros [|n]; cbn; auto. rewrite IH. reflexivity. Qed.
Lemma znth_lset_same {A} (l : list A) t v : 0 <= t < zlen l -> znth (lset l (Z.to_nat t) v) t = Ok v.
Proof. intros H. rewrite znth_lset by auto. rewrite Z.eqb_refl. reflexivity. Qed.
Lemma znth_lset_other {A} (l : list A) t t' v : 0 <= t < zlen l -> t <> t' -> znth (lset l (Z.to_nat t) v) t' = znth l t'.
Proof. intros H N. rewrite znth_lset by auto. destruct (Z.eqb_spec t' t); [congruence|]. reflexivity. Qed.
Lemma lset_id {A} (l : list A) t f : znth l t = Ok f -> lset l (Z.to_nat t) f = l.
Proof. intros H. pose proof (znth_range _ _ _ H) as R. apply znth_ext; [apply zlen_lset|]. intros i Hi. rewrite znth_lset by auto. destruct (Z.eqb_spec i t); [subst; auto|auto]. Qed.
(** a loop over the points of one field in the list *)
Lemma one_field (G : list field -> Z * Z -> res (list field)) (g : field -> Z * Z -> res field) t : (forall fs f c, znth fs t = Ok f -> G fs c = (f' <- g f c ;; zset fs t f')) ->
  forall l fs f h, znth fs t = Ok f -> foldM g f l = Ok h -> foldM G fs l = Ok (lset fs (Z.to_nat t) h).
Proof.
  intros HG. induction l as [|c l IH]; intros fs f h H E; cbn [foldM] in *.
  - injection E as <-. rewrite (lset_id fs t f H). reflexivity.
  - rewrite (HG fs f c H). destruct (g f c) as [f'| | |] eqn:Ef; try discriminate. cbn [bind] in *. pose proof (znth_range _ _ _ H) as R. rewrite zset_Ok by auto. cbn [bind]. rewrite (IH _ f' h); [rewrite lset_lset; reflexivity|apply znth_lset_same; auto|exact E].
Qed.
(** a loop over the times that treats one field after the other *)
Lemma all_fields d (T : list field -> Z -> res (list field)) (P : Z -> field -> field -> Prop) fs : shaped d fs ->
  (forall t cur f, 0 <= t < d_t d -> shaped d cur -> znth cur t = Ok f -> znth fs t = Ok f -> exists g, T cur t = Ok (lset cur (Z.to_nat t) g) /\ of_size d g /\ P t f g) ->
  exists out, foldM T fs (zrange 0 (d_t d)) = Ok out /\ shaped d out /\ forall t f g, 0 <= t < d_t d -> znth fs t = Ok f -> znth out t = Ok g -> P t f g.
Proof.
  intros H HT.
  assert (K : forall n, Z.of_nat n <= d_t d -> exists out, foldM T fs (zrange 0 (Z.of_nat n)) = Ok out /\ shaped d out /\ (forall t f g, 0 <= t < Z.of_nat n -> znth fs t = Ok f -> znth out t = Ok g -> P t f g) /\ (forall t, Z.of_nat n <= t -> znth out t = znth fs t)).
  { induction n as [|n IH]; intros Hn.
    - exists fs. split; [reflexivity|]. split; [auto|]. split; [intros; lia|auto].
    - destruct IH as (cur & E & S & G & R); [lia|]. rewrite Nat2Z.inj_succ, zrange_snoc by lia. replace (Z.succ (Z.of_nat n) - 1) with (Z.of_nat n) by lia. rewrite foldM_app, E. cbn [bind foldM].
      destruct (shaped_nth d fs (Z.of_nat n) H) as (f & Ef & Sf); [lia|]. pose proof (R (Z.of_nat n) ltac:(lia)) as Rn. rewrite Ef in Rn.
      destruct (HT (Z.of_nat n) cur f ltac:(lia) S Rn Ef) as (g & Eg & Sg & Pg). rewrite Eg. cbn [bind]. exists (lset cur (Z.to_nat (Z.of_nat n)) g). split; [reflexivity|].
      destruct S as (S0 & S1 & S2 & S3 & S4 & S5). split; [|split].
      + repeat split; auto; [rewrite zlen_lset; auto|]. apply Forall_forall. intros k Hk. apply In_znth in Hk as [t Ht]. pose proof (znth_range _ _ _ Ht) as Rt. rewrite zlen_lset in Rt. destruct (Z.eq_dec t (Z.of_nat n)) as [->|N].
        * rewrite znth_lset_same in Ht by lia. injection Ht as <-. auto.
        * rewrite znth_lset_other in Ht by lia. rewrite Forall_forall in S5. apply S5. apply znth_In in Ht. auto.
      + intros t f' g' Ht Ef' Eg'. destruct (Z.eq_dec t (Z.of_nat n)) as [->|N].
        * rewrite znth_lset_same in Eg' by lia. injection Eg' as <-. assert (f' = f) by congruence. subst. auto.
        * rewrite znth_lset_other in Eg' by lia. apply G; auto. lia.
      + intros t Ht. rewrite znth_lset_other by lia. apply R. lia. }
  assert (D : 0 <= d_t d) by apply H. destruct (K (Z.to_nat (d_t d))) as (out & E & S & G & _); [lia|]. rewrite Z2Nat.id in * by lia. exists out. auto.
Qed.
Lemma zaga_local sp ex pw gq exq pwq gqq gcq o thr mx pars d : sorts_pairs sp -> on_numbers1 ex exq -> on_nonneg2 pw pwq -> positive exq -> on_numbers3 gq gqq -> gamma_functions gcq gqq -> sound_options o thr mx -> z_6h o = false -> z_size o = 0 ->
  0 < d_e d -> (forall y x, 8 <= zlen (pars y x)) ->
  local_step d (fun vs => forall q, In (Fin q) vs -> q <> missing_number -> (0 <= q)%Qc)
    (fun i j vs ws => (Exists missing vs -> ws = vs) /\ (forall raw, vs = map Fin raw -> no_missing raw -> outcome (zaga_law exq pwq gqq (pars i j) (capped mx (qmean raw)) (fraction thr raw)) vs ws))
    (zaga_step sp ex pw gq o pars d).
Proof.
  intros HS HX HW HP HQ HG HO H6 HZ He HL f i j vs H Hi Hj Ev Lv HN. destruct (ens_ok d f i j H Hi Hj He) as (vs' & Ev' & _ & Gv). assert (vs' = vs) by congruence. subst vs'. clear Ev'. destruct HO as (O1 & O2 & O3 & O4).
  assert (WT : forall e v, znth vs e = Ok v -> window_total [f] (z_window o) 0 i j e = Ok (if cvalid v then vadd (fz 0) v else CMV)).
  { intros e v Hv. pose proof (znth_range _ _ _ Hv) as R. unfold z_window. rewrite H6. unfold window_total. change (zrange (0 - 1 + 1) (0 + 1)) with [0]. cbn [foldM]. unfold get4. change (znth [f] 0) with (Ok f). cbn [bind]. rewrite <- Gv by lia. rewrite Hv. reflexivity. }
  unfold zaga_step. destruct (Exists_dec missing vs missing_dec) as [M|M].
  - assert (PN : zaga_predictors o d [f] 0 i j = Ok None).
    { apply Exists_exists in M as (v & Hv & Mv). apply In_znth in Hv as [e Hv]. pose proof (znth_range _ _ _ Hv) as R. unfold zaga_predictors, zaga_sums. rewrite HZ.
      destruct (hood_missing (z_frac o) [f] (z_window o) 0 (around d 0 i j)) with (st := (fz 0, fz 0, 0)) as (fr & n & ES).
      - intros a b c K. rewrite around_0 in K by auto. apply in_map_iff in K as (k & [= <- <- <-] & K). apply in_zrange in K. destruct (znth_some vs k) as [u Hu]; [lia|]. rewrite (WT k u Hu). eauto.
      - exists i, j, e, CMV. split; [apply in_around; auto; unfold within; lia|]. split; [|reflexivity]. rewrite (WT e v Hv). apply cvalid_missing in Mv. rewrite Mv. reflexivity.
      - unfold hood_step in ES; rewrite ES. cbn [bind]. rewrite cvalid_MV. reflexivity. }
    rewrite PN. cbn [bind]. destruct (keep_ok d f i j vs H He Hi Hj Ev Lv) as (g & Eg & Sg & Gg & Og). exists g, vs. do 5 (split; [auto|]). split; [auto|]. intros raw -> NM. exfalso. revert M. apply no_missing_not. auto.
  - destruct (all_present vs) as (raw & Eraw & Nraw). { destruct (forallb cvalid vs) eqn:K; [auto|]. apply exists_missing_iff in K. contradiction. }
    assert (NN : forall x, In x raw -> (0 <= x)%Qc). { intros x Hx. apply HN; [rewrite Eraw; apply in_map; auto|]. unfold no_missing in Nraw. rewrite Forall_forall in Nraw. auto. }
    assert (LR : zlen raw = d_e d) by (rewrite Eraw, zlen_map in Lv; auto).
    destruct (predictors_ok o d [f] 0 i j (fun c => qnth raw (snd c)) (around d 0 i j) thr mx O1 O2 O3 O4 He Hi Hj) as (E & MN & NE).
    { rewrite HZ. apply hood_exists; auto. lia. }
    { intros y x e K. rewrite around_0 in K by auto. apply in_map_iff in K as (k & [= <- <- <-] & K). apply in_zrange in K. cbn [snd]. assert (IN : In (qnth raw k) raw). { apply (znth_In _ k). apply qnth_znth. lia. }
      split; [|apply NN; auto]. rewrite (WT k (Fin (qnth raw k))) by (rewrite Eraw, znth_map, qnth_znth by lia; reflexivity). rewrite cvalid_nonneg by (apply NN; auto). unfold fz. rewrite qz_0, vadd_F, Qcplus_0_l. reflexivity. }
    assert (MR : map (fun c : Z * Z * Z => qnth raw (snd c)) (around d 0 i j) = raw). { rewrite around_0 by auto. rewrite map_map. cbn [snd]. rewrite <- LR. apply map_qnth_zrange. }
    rewrite MR in *. rewrite E. cbn [bind]. assert (NR : raw <> []) by (intros ->; change (zlen (@nil Qc)) with 0 in LR; lia).
    assert (GV : gives (d_e d) (zaga_inv ex pw gq (Fin (capped mx (qmean raw))) (Fin (fraction thr raw)) (pars i j)) (zaga_law exq pwq gqq (pars i j) (capped mx (qmean raw)) (fraction thr raw))).
    { intros e He'. rewrite level_q by lia. exists (zaga_law exq pwq gqq (pars i j) (capped mx (qmean raw)) (fraction thr raw) (member_level (d_e d) e)). split; [|auto]. apply (zaga_inv_ok ex pw exq pwq HX HW HP _ _ _ (capped_nonneg mx (qmean raw) O3 MN) (fraction_range thr raw NR) (HL i j) gq gqq gcq _ HQ HG (level_range _ _ He')). }
    destruct (replace_ok sp d _ _ f i j vs HS H He Hi Hj GV Ev Lv) as (g & ws & Eg & Sg & Lw & Gg & Og & HOut).
    exists g, ws. do 5 (split; [auto|]). split; [contradiction|]. intros raw' K _. rewrite Eraw in K. apply map_Fin_inj in K. subst raw'. exact HOut.
Qed.
Lemma c196_zaga sp ex pw gq exq pwq gqq gcq o thr mx pars d fs : shaped d fs -> 0 < d_e d -> sorts_pairs sp -> on_numbers1 ex exq -> on_nonneg2 pw pwq -> positive exq -> on_numbers3 gq gqq -> gamma_functions gcq gqq ->
  sound_options o thr mx -> z_6h o = false -> z_size o = 0 -> (forall t y x, 8 <= zlen (pars t y x)) -> no_negative fs ->
  exists out, zaga_calibrator sp ex pw gq o pars d fs = Ok out /\ shaped d out /\
  forall t y x, 0 <= t < d_t d -> 0 <= y < d_y d -> 0 <= x < d_x d -> forall vs ws, members d fs t y x vs -> members d out t y x ws ->
    (Exists missing vs -> ws = vs) /\ (forall raw, vs = map Fin raw -> no_missing raw -> outcome (zaga_law exq pwq gqq (pars t y x) (capped mx (qmean raw)) (fraction thr raw)) vs ws).
Proof.
  intros H He HS HX HW HP HQ HG HO H6 HZ HL HN. unfold zaga_calibrator. rewrite (checks_ok o thr mx HO). cbn [bind].
  set (P := fun (t y x : Z) (vs ws : vec) => (Exists missing vs -> ws = vs) /\ (forall raw, vs = map Fin raw -> no_missing raw -> outcome (zaga_law exq pwq gqq (pars t y x) (capped mx (qmean raw)) (fraction thr raw)) vs ws)).
  match goal with |- context [foldM ?T fs _] => destruct (all_fields d T (fun t f g => forall y x, 0 <= y < d_y d -> 0 <= x < d_x d -> exists vs ws, f_ens f y x = Ok vs /\ P t y x vs ws /\ zlen ws = d_e d /\ forall e, 0 <= e < d_e d -> f_get g y x e = znth ws e) fs H) as (out & E & S & G) end.
  - intros t cur f Ht Sc Ec Ef. pose proof (zaga_local sp ex pw gq exq pwq gqq gcq o thr mx (pars t) d HS HX HW HP HQ HG HO H6 HZ He (HL t)) as LS. destruct (shaped_nth d fs t H Ht) as (f' & Ef' & Sf). assert (f' = f) by congruence. subst f'.
    destruct (points_loop d _ _ _ f Sf He LS) with (l := points d) (f := f) as (g & Eg & Sg & Gg & _); auto.
    + intros i j vs Hi Hj Ev q Hq Nq. destruct (ens_element d fs t i j f vs (Fin q) H He Ht Hi Hj Ef Ev Hq) as [e Ee]. apply (HN t i j e q Ee Nq).
    + apply NoDup_points.
    + intros i j K. apply in_points in K. auto.
    + exists g. split; [|split; [exact Sg|]].
      * apply (one_field _ (zaga_step sp ex pw gq o (pars t) d) t) with (f := f); auto. intros fs' f0 [i j] K. rewrite (predictors_single o d fs' t f0 i j H6 K). unfold zaga_step. destruct (zaga_predictors o d [f0] 0 i j) as [p| | |]; cbn [bind]; auto. rewrite K. cbn [bind]. destruct p as [[m fr]|]; reflexivity.
      * intros y x Hy Hx. destruct (Gg y x) as (vs & ws & A & B & C & D); [apply in_points; auto|]. exists vs, ws. auto.
  - exists out. split; [exact E|]. split; [exact S|]. intros t y x Ht Hy Hx vs ws Mv Mw. destruct (shaped_nth d fs t H Ht) as (f & Ef & Sf). destruct (shaped_nth d out t S Ht) as (g & Eg & Sg). destruct (G t f g Ht Ef Eg y x Hy Hx) as (vs' & ws' & Ev & PP & Lw & Gw).
    assert (vs = vs') by exact (members_ens d fs t y x f vs' H He Ht Hy Hx Ef Ev vs Mv). destruct Mw as [Lw2 Mw].
    assert (ws = ws'). { apply znth_ext; [congruence|]. intros e He'. destruct (znth_some ws e) as [v Hv]; [lia|]. rewrite Hv. destruct (Mw e v Hv) as (g2 & E2 & G2). assert (g2 = g) by congruence. subst g2. rewrite <- Gw by lia. auto. }
    subst. exact PP.
Qed.
