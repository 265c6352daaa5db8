From Verif Require Import Base ListLib M_Stat M_Interp M_Neigh M_Fast M_Sched S_Stat S_Neigh S_Fast S_Sched P_NeighAll P_NeighSafe P_Fast P_Sched.

Lemma qsteps_cons level cell n a b c : qstep level cell a b -> qsteps level cell n b c -> qsteps level cell (S n) a c.
Proof.
  intros H HS. revert a H. induction HS as [c|n x y z HS IH ST]; intros a H.
  - econstructor; [constructor|exact H].
  - econstructor; [apply IH; exact H|exact ST].
Qed.

Section Q.
Variables (level : Z * Z -> res val) (cell : Z * Z -> val -> val -> val -> res val) (lv : Z * Z -> val) (nY nX : Z) (N : nat).
Definition qdom (i : Z * Z) : Prop := 0 <= fst i < nY /\ 0 <= snd i < nX.
Hypothesis LV : forall i, qdom i -> level i = Ok (lv i).
(** all levels agree, or there is a single thread *)
Hypothesis STABLE : (forall i j, qdom i -> qdom j -> lv i = lv j) \/ (N <= 1)%nat.
Definition qval (i : Z * Z) : res val := cell i (lv i) (lv i) (lv i).
Definition phase_ok (c : val) (p : qphase) : Prop :=
  match p with
  | QIdle => True
  | QSet i => qdom i /\ c = lv i
  | QOne i q1 => qdom i /\ c = lv i /\ q1 = lv i
  | QTwo i q1 q2 => qdom i /\ c = lv i /\ q1 = lv i /\ q2 = lv i
  | QOut i v => qdom i /\ qval i = Ok v
  end.
Definition busy (p : qphase) (i : Z * Z) : Prop :=
  match p with QIdle => False | QSet j | QOne j _ | QTwo j _ _ | QOut j _ => j = i end.
Definition qinv (c : qconf) : Prop :=
  match c with
  | QRun m c ths => rect nY nX m /\ length ths = N /\
      (forall k t, nth_error ths k = Some t -> (forall i, In i (qtodo t) -> qdom i) /\ phase_ok c (qph t)) /\
      (forall i, qdom i -> (exists v, qval i = Ok v /\ get2 m (fst i) (snd i) = Ok v) \/
         exists k t, nth_error ths k = Some t /\ (In i (qtodo t) \/ busy (qph t) i))
  | QFail r => exists i, qdom i /\ (forall v, qval i <> Ok v) /\ r = fail_of (qval i)
  end.
Lemma qinv_start m ds : rect nY nX m -> length ds = N -> (forall i, In i (concat ds) <-> qdom i) -> qinv (qstart m ds).
Proof.
  intros HM HN HD. split; [exact HM|]. split; [rewrite map_length; exact HN|]. split.
  - intros k t H. apply nth_error_In in H. apply in_map_iff in H as (d & <- & Hd). cbn. split; [|exact I].
    intros i Hi. apply HD, in_concat. eauto.
  - intros i Hi. right. apply HD, in_concat in Hi as (d & Hd & Hi). apply In_nth_error in Hd as (k & Hk). exists k, (QThread d QIdle).
    split; [|left; exact Hi]. erewrite map_nth_error by exact Hk. reflexivity.
Qed.
(** a thread changes phase, memory and register unchanged *)
Lemma qinv_local m c ths k t t' : qinv (QRun m c ths) -> nth_error ths k = Some t ->
  (forall i, In i (qtodo t') -> In i (qtodo t)) -> phase_ok c (qph t') ->
  (forall i, In i (qtodo t) \/ busy (qph t) i -> In i (qtodo t') \/ busy (qph t') i) -> qinv (QRun m c (lset ths k t')).
Proof.
  intros (HM & HN & HT & HC) E1 S1 S2 S3. split; [exact HM|]. split; [rewrite length_lset; exact HN|]. split.
  - intros j u Hu. destruct (nth_lset_inv _ _ _ _ _ _ E1 Hu) as [[-> ->]|[_ H]]; [|exact (HT _ _ H)]. split; [|exact S2]. intros i Hi. apply (proj1 (HT _ _ E1)), S1, Hi.
  - intros j Hj. destruct (HC j Hj) as [D|(k' & u & Eu & D)]; [left; exact D|right].
    destruct (Nat.eq_dec k' k) as [->|NK]; [|exists k', u; split; [rewrite nth_lset_other by exact NK; exact Eu|exact D]].
    rewrite E1 in Eu. injection Eu as <-. exists k, t'. split; [eapply nth_lset_same; exact E1|]. apply S3, D.
Qed.
Lemma qinv_step a b : qinv a -> qstep level cell a b -> qinv b.
Proof.
  intros HI HS. destruct HS as [m c ths k i rest q E1 E2|m c ths k i rest E1 E2|m c ths k i rest E1|m c ths k i rest q1 E1|m c ths k i rest q1 q2 v E1 E2|m c ths k i rest q1 q2 E1 E2|m c ths k i rest v m' E1 E2|m c ths k i rest v E1 E2];
    pose proof HI as (HM & HN & HT & HC); destruct (HT _ _ E1) as [T1 T2]; cbn [qtodo qph] in T1, T2.
  - assert (Di : qdom i) by (apply T1; left; reflexivity). rewrite (LV i Di) in E2. injection E2 as <-.
    assert (HI' : qinv (QRun m (lv i) ths)).
    { split; [exact HM|]. split; [exact HN|]. split; [|exact HC]. intros j t Ht. destruct (HT _ _ Ht) as [U1 U2]. split; [exact U1|].
      destruct STABLE as [ALL|ONE].
      - destruct (qph t); cbn in *; intuition.
      - assert (j = k) as ->.
        { assert (j < length ths)%nat by (apply nth_error_Some; congruence). assert (k < length ths)%nat by (apply nth_error_Some; congruence). lia. }
        rewrite E1 in Ht. injection Ht as <-. exact I. }
    eapply qinv_local; [exact HI'|exact E1| | |]; cbn; auto.
    intros j [[->|H]|[]]; auto.
  - assert (Di : qdom i) by (apply T1; left; reflexivity). exfalso. exact (E2 _ (LV i Di)).
  - eapply qinv_local; [exact HI|exact E1| | |]; cbn in *; intuition.
  - eapply qinv_local; [exact HI|exact E1| | |]; cbn in *; intuition.
  - cbn in T2. destruct T2 as (Di & C1 & C2 & C3). eapply qinv_local; [exact HI|exact E1| | |]; cbn; auto. split; [exact Di|]. unfold qval. congruence.
  - cbn in T2. destruct T2 as (Di & C1 & C2 & C3). exists i. subst c q1 q2. auto.
  - cbn in T2. destruct T2 as [Di Vi]. destruct (wr2_law nY nX m i v HM Di) as (m2 & W & O & R1 & R2). rewrite W in E2. injection E2 as ->.
    split; [exact O|]. split; [rewrite length_lset; exact HN|]. split.
    + intros j t Ht. destruct (nth_lset_inv _ _ _ _ _ _ E1 Ht) as [[-> ->]|[_ H]]; [|exact (HT _ _ H)]. cbn. auto.
    + intros j Hj. destruct (pair_dec j i) as [->|NE]; [left; eauto|].
      destruct (HC j Hj) as [(w & D1 & D2)|(k' & t & Et & D)]; [left; exists w; split; [exact D1|rewrite R2 by assumption; exact D2]|right].
      destruct (Nat.eq_dec k' k) as [->|N']; [|exists k', t; split; [rewrite nth_lset_other by exact N'; exact Et|exact D]].
      rewrite E1 in Et. injection Et as <-. exists k. eexists. split; [eapply nth_lset_same; exact E1|]. cbn in *.
      destruct D as [D|D]; [left; exact D|congruence].
  - cbn in T2. destruct T2 as [Di Vi]. destruct (wr2_law nY nX m i v HM Di) as (m2 & W & _). exfalso. exact (E2 _ W).
Qed.
Lemma qinv_steps n a b : qinv a -> qsteps level cell n a b -> qinv b.
Proof. intros HI HS. induction HS as [|n a b c HS IH ST]; [exact HI|]. eapply qinv_step; [apply IH; exact HI|exact ST]. Qed.
Lemma qinv_ends c r : qinv c -> qends c r ->
  (exists m, r = Ok m /\ rect nY nX m /\ forall i, qdom i -> exists v, qval i = Ok v /\ get2 m (fst i) (snd i) = Ok v) \/
  (exists i, qdom i /\ (forall v, qval i <> Ok v) /\ r = fail_of (qval i)).
Proof.
  destruct c as [m q ths|f]; cbn.
  - intros (HM & HN & HT & HC) [-> F]. left. exists m. split; [reflexivity|]. split; [exact HM|]. intros i Hi. destruct (HC i Hi) as [D|(k & t & Et & D)]; [exact D|].
    rewrite Forall_forall in F. rewrite (F t (nth_error_In _ _ Et)) in D. cbn in D. destruct D as [[]|[]].
  - intros H ->. right. exact H.
Qed.
End Q.

(** progress and termination *)
Section QTerm.
Variables (level : Z * Z -> res val) (cell : Z * Z -> val -> val -> val -> res val).
Definition pcost (p : qphase) : nat := match p with QIdle => 0 | QSet _ => 4 | QOne _ _ => 3 | QTwo _ _ _ => 2 | QOut _ _ => 1 end.
Definition qcost (t : qthread) : nat := (5 * length (qtodo t) + pcost (qph t))%nat.
Definition qwork (c : qconf) : nat := match c with QRun _ _ ths => msum qcost ths | QFail _ => O end.
Lemma qcost_eq l p : qcost (QThread l p) = (5 * length l + pcost p)%nat. Proof. reflexivity. Qed.
Lemma qstep_work a b : qstep level cell a b -> (qwork b < qwork a)%nat.
Proof.
  assert (POS : forall ths k t, nth_error ths k = Some t -> (0 < qcost t)%nat -> (0 < msum qcost ths)%nat).
  { intros ths k t Ht P. pose proof (msum_lset qcost _ _ _ t Ht). revert k Ht H. induction ths as [|x ths IH]; intros [|k] Ht H; cbn in *; try discriminate; [injection Ht as ->; lia|].
    assert (msum qcost (lset ths k t) + qcost t = msum qcost ths + qcost t)%nat by lia. specialize (IH k Ht H0). lia. }
  intros HS. destruct HS as [m c ths k i rest q E1 E2|m c ths k i rest E1 E2|m c ths k i rest E1|m c ths k i rest q1 E1|m c ths k i rest q1 q2 v E1 E2|m c ths k i rest q1 q2 E1 E2|m c ths k i rest v m' E1 E2|m c ths k i rest v E1 E2]; cbn [qwork].
  1: pose proof (msum_lset qcost _ _ _ (QThread rest (QSet i)) E1) as M.
  2: apply (POS _ _ _ E1); rewrite qcost_eq; cbn; lia.
  2: pose proof (msum_lset qcost _ _ _ (QThread rest (QOne i c)) E1) as M.
  3: pose proof (msum_lset qcost _ _ _ (QThread rest (QTwo i q1 c)) E1) as M.
  4: pose proof (msum_lset qcost _ _ _ (QThread rest (QOut i v)) E1) as M.
  5: apply (POS _ _ _ E1); rewrite qcost_eq; cbn; lia.
  5: pose proof (msum_lset qcost _ _ _ (QThread rest QIdle) E1) as M.
  6: apply (POS _ _ _ E1); rewrite qcost_eq; cbn; lia.
  all: rewrite !qcost_eq in M; cbn [length pcost] in M; lia.
Qed.
Lemma qprogress c : (exists r, qends c r) \/ exists c', qstep level cell c c'.
Proof.
  destruct c as [m q ths|f]; [|left; cbn; eauto].
  destruct (find_active (fun t => t = QThread [] QIdle)) with (l := ths) as [F|(k & t & Ek & N)].
  - intros [[|i l] p]; [destruct p|]; [left; reflexivity|right..]; intros K; discriminate K.
  - left. exists (Ok m). cbn. auto.
  - right. destruct t as [td p]. destruct p as [|i|i q1|i q1 q2|i v].
    + destruct td as [|i rest]; [exfalso; apply N; reflexivity|]. destruct (level i) as [l|e| |] eqn:L.
      * eexists. eapply q_set; eauto.
      * eexists. eapply q_set_fail; [exact Ek|]. intros; congruence.
      * eexists. eapply q_set_fail; [exact Ek|]. intros; congruence.
      * eexists. eapply q_set_fail; [exact Ek|]. intros; congruence.
    + eexists. eapply q_one; eauto.
    + eexists. eapply q_two; eauto.
    + destruct (cell i q1 q2 q) as [v|e| |] eqn:L.
      * eexists. eapply q_compute; eauto.
      * eexists. eapply q_compute_fail; [exact Ek|]. intros; congruence.
      * eexists. eapply q_compute_fail; [exact Ek|]. intros; congruence.
      * eexists. eapply q_compute_fail; [exact Ek|]. intros; congruence.
    + destruct (wr2 m i v) as [m'|e| |] eqn:W.
      * eexists. eapply q_store; eauto.
      * eexists. eapply q_store_fail; [exact Ek|]. intros; congruence.
      * eexists. eapply q_store_fail; [exact Ek|]. intros; congruence.
      * eexists. eapply q_store_fail; [exact Ek|]. intros; congruence.
Qed.
Lemma qterminates c0 : forall w n c, (qwork c <= w)%nat -> qsteps level cell n c0 c -> exists n' c' r, qsteps level cell n' c0 c' /\ qends c' r.
Proof.
  induction w as [|w IH]; intros n c Hw HS.
  - destruct (qprogress c) as [(r & R)|(c' & ST)]; [eauto|]. apply qstep_work in ST. lia.
  - destruct (qprogress c) as [(r & R)|(c' & ST)]; [eauto|]. pose proof (qstep_work _ _ ST). apply (IH (Datatypes.S n) c'); [lia|econstructor; eauto].
Qed.
Lemma qexists m ds : exists n c r, qsteps level cell n (qstart m ds) c /\ qends c r.
Proof. eapply qterminates; [reflexivity|constructor]. Qed.
End QTerm.

(** ** the tail of neighbourhood_quantile_fast *)
Lemma omp_Ok {A} (r : res A) a : omp r = Ok a -> r = Ok a.
Proof. destruct r; cbn; congruence. Qed.
Lemma tail_par_total E nY nX h quantile fixed thr frac yv ds : exists r, fast_tail_par E nY nX h quantile fixed thr frac yv ds r.
Proof.
  unfold fast_tail_par. destruct (zlen thr =? 0); [eauto|]. destruct (fast_stats E nY nX h thr frac) as [stats| | |]; [|eauto..].
  destruct (if fixed then get2 quantile 0 0 else Ok MV) as [fq| | |]; [|eauto..].
  destruct (qexists (fun i => if fixed then Ok fq else get2 quantile (fst i) (snd i)) (fun i q1 q2 q3 => fast_cell3 thr stats yv q1 q2 q3 (fst i) (snd i)) (init2 nY nX MV) ds) as (n & c & r & H).
  exists r, n, c. exact H.
Qed.
Lemma tail_par E nY nX h quantile (fixed : bool) thr frac yv ds out : 0 <= nY -> 0 <= nX -> covers2 nY nX ds ->
  (forall y x, 0 <= y < nY -> 0 <= x < nX -> exists q, get2 quantile (if fixed then 0 else y) (if fixed then 0 else x) = Ok q) ->
  (fixed = true \/ (length ds <= 1)%nat \/ exists q, forall y x, 0 <= y < nY -> 0 <= x < nX -> get2 quantile y x = Ok q) ->
  fast_tail E nY nX h quantile fixed thr frac yv = Ok out ->
  forall r, fast_tail_par E nY nX h quantile fixed thr frac yv ds r -> r = Ok out.
Proof.
  intros HY HX HC HQ HS Hseq r. unfold fast_tail in Hseq. unfold fast_tail_par. destruct (zlen thr =? 0); [congruence|].
  destruct (fast_stats E nY nX h thr frac) as [stats| | |]; try discriminate. cbn [bind] in Hseq.
  destruct (if fixed then get2 quantile 0 0 else Ok MV) as [fq| | |] eqn:EF; try discriminate. cbn [bind] in Hseq.
  apply omp_Ok in Hseq. rewrite for2_init_tab in Hseq by assumption.
  set (level := fun i : Z * Z => if fixed then Ok fq else get2 quantile (fst i) (snd i)).
  set (cell := fun (i : Z * Z) q1 q2 q3 => fast_cell3 thr stats yv q1 q2 q3 (fst i) (snd i)).
  set (lv := fun i : Z * Z => match level i with Ok q => q | _ => NaN end).
  intros (n & c & HR & HE).
  assert (LV : forall i, qdom nY nX i -> level i = Ok (lv i)).
  { intros [y x] [Dy Dx]. unfold lv. cbn in Dy, Dx. destruct (HQ y x Dy Dx) as (q & Gq). unfold level. cbn [fst snd]. destruct fixed; [reflexivity|]. rewrite Gq. reflexivity. }
  assert (ST : (forall i j, qdom nY nX i -> qdom nY nX j -> lv i = lv j) \/ (length ds <= 1)%nat).
  { destruct HS as [->|[L|(q & Hq)]]; [left; reflexivity|right; exact L|left].
    destruct fixed; [reflexivity|]. intros [y x] [y' x'] [D1 D2] [D3 D4]. cbn in D1, D2, D3, D4. unfold lv, level. cbn [fst snd]. rewrite !Hq by assumption. reflexivity. }
  pose proof (qinv_steps level cell lv nY nX (length ds) LV ST n _ _ (qinv_start cell lv nY nX (length ds) _ ds (rect_init2 nY nX MV HY HX) eq_refl HC) HR) as HI.
  destruct (tab2_inv _ _ _ _ HY HX Hseq) as [RO GO].
  destruct (qinv_ends cell lv nY nX (length ds) c r HI HE) as [(m & -> & Rm & G)|([y x] & [Dy Dx] & NV & _)].
  - f_equal. apply (rect_ext nY nX); [exact Rm|exact RO|]. intros y x Hy Hx. destruct (G (y, x) (conj Hy Hx)) as (v & B & E2).
    destruct (GO y x Hy Hx) as (w & E3 & B2). pose proof (LV (y, x) (conj Hy Hx)) as Lyx. unfold level in Lyx. cbn [fst snd] in *. rewrite Lyx in B2. cbn [bind] in B2.
    unfold qval, cell in B. cbn [fst snd] in B. unfold fast_cell in B2. congruence.
  - exfalso. cbn in Dy, Dx. destruct (GO y x Dy Dx) as (w & _ & B2). pose proof (LV (y, x) (conj Dy Dx)) as Lyx. unfold level in Lyx. cbn [fst snd] in *. rewrite Lyx in B2. cbn [bind] in B2.
    exact (NV _ B2).
Qed.
(** the schedule cannot matter: a 1x1 level, a constant level field, or one thread *)
Definition safe_levels (quantile : vec2) (nY nX : Z) (ds : list (list (Z * Z))) : Prop :=
  rect 1 1 quantile \/ (length ds <= 1)%nat \/ exists q, forall y x, 0 <= y < nY -> 0 <= x < nX -> get2 quantile y x = Ok q.
Lemma size_full quantile nY nX fixed full : 0 < nY -> 0 < nX -> rect 1 1 quantile \/ rect nY nX quantile ->
  (fixed <- has_size quantile 1 1 ;; full <- (if fixed then Ok true else has_size quantile nY nX) ;; Ok (fixed, full)) = Ok (fixed, full) ->
  full = true /\ (rect 1 1 quantile -> fixed = true) /\ forall y x, 0 <= y < nY -> 0 <= x < nX -> exists q, get2 quantile (if fixed then 0 else y) (if fixed then 0 else x) = Ok q.
Proof.
  intros HY HX HR H. destruct (has_size quantile 1 1) as [f| | |] eqn:H1; try discriminate H. cbn [bind] in H.
  assert (SZ : forall a b, 0 < a -> rect a b quantile -> has_size quantile a b = Ok true) by (intros; apply has_size_rect; assumption).
  assert (F1 : rect 1 1 quantile -> f = true) by (intros R; rewrite (SZ 1 1 ltac:(lia) R) in H1; congruence).
  destruct f.
  - cbn in H. injection H as <- <-. split; [reflexivity|]. split; [reflexivity|]. intros y x _ _.
    unfold has_size in H1. destruct (zlen quantile =? 1) eqn:L; [|discriminate]. destruct (znth quantile 0) as [q0| | |] eqn:E0; try discriminate. cbn in H1. injection H1 as H1.
    unfold get2. rewrite E0. cbn. apply znth_some. lia.
  - destruct HR as [R|R]; [specialize (F1 R); discriminate|]. rewrite (SZ nY nX HY R) in H. cbn in H. injection H as <- <-.
    split; [reflexivity|]. split; [exact F1|]. intros y x Hy Hx. exact (rect_get2 nY nX quantile y x R Hy Hx).
Qed.
Lemma fast2_par E (input : vec2) quantile nY nX h thr ds out : rect nY nX input -> 0 < nY -> 0 < nX -> covers2 nY nX ds ->
  rect 1 1 quantile \/ rect nY nX quantile -> safe_levels quantile nY nX ds ->
  quantile_fast2 E input quantile h thr = Ok out -> 
  (exists r, quantile_fast2_par E input quantile h thr ds r) /\ forall r, quantile_fast2_par E input quantile h thr ds r -> r = Ok out.
Proof.
  intros HR HY HX HC HQ HS. unfold quantile_fast2, quantile_fast2_par. destruct (h <? 0); [discriminate|]. pose proof HR as [RL RR]. destruct (zlen input =? 0) eqn:Z0; [lia|].
  destruct (znth_some input 0 ltac:(lia)) as (i0 & E0). rewrite E0. cbn [bind]. pose proof (RR i0 (znth_In _ _ _ E0)) as L0. rewrite RL, L0. destruct (nX =? 0) eqn:Z1; [lia|].
  pose proof (size_full quantile nY nX) as SF. destruct (has_size quantile 1 1) as [fixed| | |]; try discriminate. cbn [bind] in SF |- *.
  destruct (if fixed then Ok true else has_size quantile nY nX) as [full| | |]; try discriminate. cbn [bind] in SF |- *.
  destruct (SF fixed full HY HX HQ eq_refl) as (-> & F1 & F2). cbn [negb]. destruct (forallb (forallb level_ok) quantile); [|discriminate]. cbn [negb].
  intros Hseq. split; [apply tail_par_total|]. intros r Hr. eapply tail_par; [ | |exact HC|exact F2| |exact Hseq|exact Hr]; [lia|lia|].
  destruct HS as [S|[S|S]]; auto.
Qed.
Lemma fast3_par E (input : vec3) quantile nY nX nE h thr ds out : rect3 nY nX nE input -> 0 < nY -> 0 < nX -> 0 < nE -> covers2 nY nX ds ->
  rect 1 1 quantile \/ rect nY nX quantile -> safe_levels quantile nY nX ds ->
  quantile_fast3 E input quantile h thr = Ok out -> 
  (exists r, quantile_fast3_par E input quantile h thr ds r) /\ forall r, quantile_fast3_par E input quantile h thr ds r -> r = Ok out.
Proof.
  intros [HR HE3] HY HX HE HC HQ HS. unfold quantile_fast3, quantile_fast3_par. destruct (h <? 0); [discriminate|]. pose proof HR as [RL RR]. destruct (zlen input =? 0) eqn:Z0; [lia|].
  destruct (znth_some input 0 ltac:(lia)) as (i0 & E0). rewrite E0. cbn [bind]. pose proof (RR i0 (znth_In _ _ _ E0)) as L0. rewrite RL, L0. destruct (nX =? 0) eqn:Z1; [lia|].
  destruct (znth_some i0 0 ltac:(lia)) as (i00 & E00). rewrite E00. cbn [bind]. pose proof (HE3 _ _ (znth_In _ _ _ E0) (znth_In _ _ _ E00)) as L00. rewrite L00. destruct (nE =? 0) eqn:Z2; [lia|].
  pose proof (size_full quantile nY nX) as SF. destruct (has_size quantile 1 1) as [fixed| | |]; try discriminate. cbn [bind] in SF |- *.
  destruct (if fixed then Ok true else has_size quantile nY nX) as [full| | |]; try discriminate. cbn [bind] in SF |- *.
  destruct (SF fixed full HY HX HQ eq_refl) as (-> & F1 & F2). cbn [negb]. destruct (forallb (forallb level_ok) quantile); [|discriminate]. cbn [negb].
  intros Hseq. split; [apply tail_par_total|]. intros r Hr. eapply tail_par; [ | |exact HC|exact F2| |exact Hseq|exact Hr]; [lia|lia|].
  destruct HS as [S|[S|S]]; auto.
Qed.
Lemma c23_partial E :
  (forall (input : vec2) q nY nX h thr ds out, rect nY nX input -> 0 < nY -> 0 < nX -> covers2 nY nX ds ->
     neighbourhood_quantile_fast E input q h thr = Ok out ->
     (exists r, quantile_fast2_par E input [[q]] h thr ds r) /\ forall r, quantile_fast2_par E input [[q]] h thr ds r -> r = Ok out) /\
  (forall (input : vec3) q nY nX nE h thr ds out, rect3 nY nX nE input -> 0 < nY -> 0 < nX -> 0 < nE -> covers2 nY nX ds ->
     neighbourhood_quantile_fast3 E input q h thr = Ok out ->
     (exists r, quantile_fast3_par E input [[q]] h thr ds r) /\ forall r, quantile_fast3_par E input [[q]] h thr ds r -> r = Ok out) /\
  (forall (input : vec2) quantile nY nX h thr d out, rect nY nX input -> 0 < nY -> 0 < nX -> covers2 nY nX [d] -> rect nY nX quantile ->
     quantile_fast2 E input quantile h thr = Ok out ->
     (exists r, quantile_fast2_par E input quantile h thr [d] r) /\ forall r, quantile_fast2_par E input quantile h thr [d] r -> r = Ok out) /\
  (forall (input : vec3) quantile nY nX nE h thr d out, rect3 nY nX nE input -> 0 < nY -> 0 < nX -> 0 < nE -> covers2 nY nX [d] -> rect nY nX quantile ->
     quantile_fast3 E input quantile h thr = Ok out ->
     (exists r, quantile_fast3_par E input quantile h thr [d] r) /\ forall r, quantile_fast3_par E input quantile h thr [d] r -> r = Ok out).
Proof.
  assert (R1 : forall q : val, rect 1 1 [[q]]) by (intros q; split; [reflexivity|intros r [<-|[]]; reflexivity]).
  split; [|split; [|split]].
  - intros. eapply fast2_par; eauto. left. apply R1.
  - intros. eapply fast3_par; eauto. left. apply R1.
  - intros. eapply fast2_par; eauto. right. left. apply le_n.
  - intros. eapply fast3_par; eauto. right. left. apply le_n.
Qed.
(** two threads, one cell each: thread 1 sets the shared level between thread 0's assignment and its reads *)
Lemma race2 level cell a b v0 v1 : level (0, 0) = Ok a -> level (1, 0) = Ok b -> cell (0, 0) b b b = Ok v0 -> cell (1, 0) b b b = Ok v1 ->
  exists n c, qsteps level cell n (qstart [[MV]; [MV]] [[(0, 0)]; [(1, 0)]]) c /\ qends c (Ok [[v0]; [v1]]).
Proof.
  intros L0 L1 C0 C1. exists 10%nat. eexists. split.
  - eapply qsteps_cons; [apply q_set with (k := 0%nat); [reflexivity|exact L0]|cbn [lset]].
    eapply qsteps_cons; [apply q_set with (k := 1%nat); [reflexivity|exact L1]|cbn [lset]].
    eapply qsteps_cons; [apply q_one with (k := 0%nat); reflexivity|cbn [lset]].
    eapply qsteps_cons; [apply q_two with (k := 0%nat); reflexivity|cbn [lset]].
    eapply qsteps_cons; [eapply q_compute with (k := 0%nat); [reflexivity|exact C0]|cbn [lset]].
    eapply qsteps_cons; [apply q_one with (k := 1%nat); reflexivity|cbn [lset]].
    eapply qsteps_cons; [apply q_two with (k := 1%nat); reflexivity|cbn [lset]].
    eapply qsteps_cons; [eapply q_compute with (k := 1%nat); [reflexivity|exact C1]|cbn [lset]].
    eapply qsteps_cons; [eapply q_store with (k := 0%nat); reflexivity|cbn [lset]].
    eapply qsteps_cons; [eapply q_store with (k := 1%nat); reflexivity|cbn [lset]].
    constructor.
  - cbn. split; [reflexivity|]. repeat constructor.
Qed.
Lemma c23_refuted : exists (input quantile : vec2) h thr ds out out', rect 2 1 input /\ rect 2 1 quantile /\ covers2 2 1 ds /\
  quantile_fast2 E0 input quantile h thr = Ok out /\ quantile_fast2_par E0 input quantile h thr ds (Ok out') /\ out' <> out.
Proof.
  exists [[fz 0]; [fz 1]], [[fq (3#4)]; [fz 1]], 1, [fz 0; fz 1], [[(0, 0)]; [(1, 0)]].
  exists [[fq (1#2)]; [fz 1]], [[fz 1]; [fz 1]].
  split; [split; [reflexivity|intros r [<-|[<-|[]]]; reflexivity]|].
  split; [split; [reflexivity|intros r [<-|[<-|[]]]; reflexivity]|].
  split.
  { intros [y x]. cbn. split; [intros [H|[H|[]]]; injection H as <- <-; lia|]. intros [Hy Hx]. assert (y = 0 \/ y = 1) as [->| ->] by lia; replace x with 0 by lia; auto. }
  split; [vcalc|]. split; [|intros K; injection K as K; discriminate K].
  unfold quantile_fast2_par. change (1 <? 0) with false. cbn iota. change (zlen [[fz 0]; [fz 1]] =? 0) with false. cbn iota.
  change (znth [[fz 0]; [fz 1]] 0) with (Ok [fz 0]). cbv iota beta. change (zlen [fz 0] =? 0) with false. cbv iota beta.
  change (zlen [[fz 0]; [fz 1]]) with 2. change (zlen [fz 0]) with 1.
  set (hs := fixed <- _ ;; _). assert (Ehs : hs = Ok (false, true)) by (vm_compute; reflexivity). rewrite Ehs. clear hs Ehs. cbn [negb].
  set (fb := forallb _ _). assert (Efb : fb = true) by (vm_compute; reflexivity). rewrite Efb. clear fb Efb. cbn [negb].
  unfold fast_tail_par. change (zlen [fz 0; fz 1] =? 0) with false. cbv iota.
  match goal with |- match ?e with _ => _ end => let r := eval vm_compute in e in match r with Ok ?s => assert (ES : e = Ok s) by (vm_compute; reflexivity); rewrite ES; clear ES end end.
  cbv iota. change (init2 2 1 MV) with [[MV]; [MV]].
  eapply race2; [reflexivity|reflexivity|vcalc|vcalc].
Qed.
