From Verif Require Import Base ListLib M_Stat M_Interp M_Curve S_Stat S_Interp S_Curve P_Stat P_Interp P_NeighAll P_Search P_Curve.

Lemma tol_pos : (0 < tol)%Qc. Proof. reflexivity. Qed.
Ltac tlra := let t := fresh "t" in set (t := tol) in *; clearbody t; qlra.
Lemma kept_pairs fcst : forall ref, filter (fun p : val * val => is_valid (fst p) && is_valid (snd p)) (combine fcst ref) =
  map (fun p => (Fin (fst p), Fin (snd p))) (complete_pairs fcst ref).
Proof.
  induction fcst as [|f fs IH]; intros ref; [reflexivity|]. destruct ref as [|r rs]; [destruct f; reflexivity|].
  destruct f, r; cbn; rewrite IH; reflexivity.
Qed.

Section Mono.
Context (F : list Qc).
Let N := zlen F.
Let f (k : Z) := qnth F k.
Definition above_stack (a b : Z) : Prop := b < a /\ (qnth F b + tol < qnth F a)%Qc.
Definition minv (i : Z) (s : mstate) : Prop := exists mn mx,
  ms_min s = Fin mn /\ ms_max s = Fin mx /\ ms_prev s = Fin mx /\
  Forall (fun k => 0 <= k < i) (ms_idx s) /\ StronglySorted above_stack (ms_idx s) /\
  Forall (fun k => (f k <= mx)%Qc) (ms_idx s) /\
  (forall k j, In k (ms_idx s) -> k < j < i -> (ms_dev s = true -> (f k < mn)%Qc) -> (f k < f j)%Qc).

Lemma pop_from_ok lim st : Forall (fun k => 0 <= k < N) st -> StronglySorted above_stack st ->
  exists out, pop_from (map Fin F) (Fin lim) st = Ok out /\ (exists pre, st = pre ++ out) /\ StronglySorted above_stack out /\
    Forall (fun k => (f k < lim)%Qc) out.
Proof.
  pose proof tol_pos as TP. intros HR HS. induction st as [|a st IH]; cbn [pop_from].
  - exists []. split; [reflexivity|]. split; [exists []; reflexivity|]. split; constructor.
  - inversion HR as [|? ? R1 R2]. inversion HS as [|? ? S1 S2]. subst. rewrite znth_mapFin by (unfold N in *; lia). cbn [bind].
    rewrite vsub_Fin. cbn [vltb]. destruct (qltb_spec (qnth F a) (lim - tol)) as [L|L].
    + exists (a :: st). split; [reflexivity|]. split; [exists []; reflexivity|]. split; [exact HS|].
      constructor; [unfold f; tlra|]. eapply Forall_impl; [|exact S2]. intros b [_ Hb]. unfold f. tlra.
    + destruct (IH R2 S1) as (out & E & (pre & P) & Q & R). exists out. split; [exact E|]. split; [exists (a :: pre); rewrite P; reflexivity|]. auto.
Qed.
Lemma mono_step_inv i s : 0 <= i < N -> minv i s -> exists s', mono_step (map Fin F) s i = Ok s' /\ minv (i + 1) s'.
Proof.
  pose proof tol_pos as TP.
  intros Hi (mn & mx & E1 & E2 & E3 & R & S & M & L). unfold mono_step. rewrite znth_mapFin by (unfold N in *; lia). cbn [bind].
  assert (R' : Forall (fun k => 0 <= k < i + 1) (ms_idx s)) by (eapply Forall_impl; [|exact R]; cbn; intros; lia).
  destruct (ms_dev s) eqn:ED.
  - rewrite E1. cbn [vltb]. set (x := qnth F i). set (mn' := if qltb x mn then x else mn).
    assert (LE : (mn' <= mn /\ mn' <= x)%Qc) by (unfold mn'; destruct (qltb_spec x mn); split; try apply Qcle_refl; tlra).
    replace (if qltb x mn then Fin x else Fin mn) with (Fin mn') by (unfold mn'; destruct (qltb x mn); reflexivity).
    assert (EX : f i = x) by reflexivity. clearbody mn'. change (qnth F i) with x. clearbody x.
    rewrite E2. rewrite vadd_Fin. cbn [vltb]. destruct (qltb_spec (mx + tol) x) as [G|G].
    + destruct (pop_from_ok mn' (ms_idx s)) as (out & E & (pre & P) & Q & R2); [eapply Forall_impl; [|exact R]; cbn; intros; lia|exact S|].
      rewrite E. cbn [bind]. eexists. split; [reflexivity|]. exists mn', x. cbn.
      split; [reflexivity|]. split; [reflexivity|]. split; [reflexivity|].
      rewrite P in R', M. apply Forall_app in R'. apply Forall_app in M. destruct R' as [_ R'], M as [_ M].
      split; [constructor; [lia|exact R']|]. split.
      { constructor; [exact Q|]. rewrite Forall_forall in *. intros b Hb. split.
        - assert (In b (ms_idx s)) by (rewrite P; apply in_or_app; auto). specialize (R b H). cbn in R. lia.
        - assert (B : (f b <= mx)%Qc) by (apply (M b Hb)). change (f b + tol < f i)%Qc. rewrite EX. tlra. }
      split.
      { constructor; [rewrite EX; apply Qcle_refl|]. eapply Forall_impl; [|exact M]. cbn. intros b Hb. tlra. }
      intros k j [<-|Hk] Hj _; [lia|]. rewrite Forall_forall in R2, M. assert (B1 : (f k < mn')%Qc) by (apply (R2 k Hk)). assert (B2 : (f k <= mx)%Qc) by (apply (M k Hk)).
      destruct (Z.eq_dec j i) as [->|NJ]; [rewrite EX; tlra|]. apply L; [rewrite P; apply in_or_app; auto|lia|]. intros _. tlra.
    + eexists. split; [reflexivity|]. exists mn', mx. cbn. split; [reflexivity|]. split; [reflexivity|]. split; [exact E3|].
      split; [exact R'|]. split; [exact S|]. split; [exact M|]. intros k j Hk Hj Hm. specialize (Hm eq_refl).
      destruct (Z.eq_dec j i) as [->|NJ]; [rewrite EX; tlra|]. apply L; [exact Hk|lia|]. intros _. tlra.
  - rewrite E3, vadd_Fin, vleb_Fin. destruct (qleb_spec (qnth F i) (mx + tol)) as [G|G].
    + eexists. split; [reflexivity|]. exists (qnth F i), mx. cbn. split; [reflexivity|]. split; [exact E2|]. split; [reflexivity|].
      split; [exact R'|]. split; [exact S|]. split; [exact M|]. intros k j Hk Hj Hm.
      destruct (Z.eq_dec j i) as [->|NJ]; [apply Hm; reflexivity|]. apply L; [exact Hk|lia|discriminate].
    + apply Qcnot_le_lt in G. eexists. split; [reflexivity|]. exists mn, (qnth F i). cbn. split; [exact E1|]. split; [reflexivity|]. split; [reflexivity|].
      split; [constructor; [lia|exact R']|]. split.
      { constructor; [exact S|]. rewrite Forall_forall in *. intros b Hb. split; [specialize (R b Hb); cbn in R; lia|]. assert (B : (f b <= mx)%Qc) by (apply (M b Hb)). unfold f in B. tlra. }
      split.
      { constructor; [apply Qcle_refl|]. eapply Forall_impl; [|exact M]. cbn. intros b Hb. tlra. }
      intros k j [<-|Hk] Hj _; [lia|]. rewrite Forall_forall in M. assert (B2 : (f k <= mx)%Qc) by (apply (M k Hk)).
      destruct (Z.eq_dec j i) as [->|NJ]; [unfold f in *; tlra|]. apply L; [exact Hk|lia|discriminate].
Qed.

Definition up_stack (a b : Z) : Prop := a < b /\ (qnth F a + tol < qnth F b)%Qc.
Lemma rev_sorted st : StronglySorted above_stack st -> StronglySorted up_stack (rev st).
Proof.
  induction 1 as [|a l S IH FA]; cbn; [constructor|].
  assert (G : forall l, StronglySorted up_stack l -> Forall (above_stack a) l -> StronglySorted up_stack (l ++ [a])).
  { clear. induction l as [|b l IH]; cbn; intros HS HF; [constructor; constructor|]. inversion HS. inversion HF. subst. constructor; [auto|].
    apply Forall_app. split; [assumption|]. constructor; [|constructor]. destruct H5. split; [lia|assumption]. }
  apply G; [exact IH|]. apply Forall_rev. exact FA.
Qed.
Lemma removelast_prefix {A} (l : list A) : exists suf, l = removelast l ++ suf.
Proof. destruct l as [|a l]; [exists []; reflexivity|]. exists [last (a :: l) a]. apply app_removelast_last. discriminate. Qed.
Lemma zlen_removelast {A} (l : list A) : l <> [] -> zlen (removelast l) = zlen l - 1.
Proof. intros H. destruct l as [|a l]; [congruence|]. pose proof (app_removelast_last a H) as E'. rewrite E' at 2. rewrite zlen_app, zlen_cons, zlen_nil. lia. Qed.
(** invariant of the final loop: front = keep ++ rest, where the first j entries are unexamined and the examined survivors are below mn *)
Lemma final_pops_ok mn j : forall front, (j <= length front)%nat -> Forall (fun k => 0 <= k < N) front -> StronglySorted up_stack front ->
  (forall i k, Z.of_nat j <= i -> znth front i = Ok k -> (f k < mn)%Qc) ->
  exists out, final_pops (map Fin F) (Fin mn) j front = Ok out /\ (exists suf, front = out ++ suf) /\ Forall (fun k => (f k < mn)%Qc) out.
Proof.
  pose proof tol_pos as TP.
  induction j as [|j IH]; intros front HJ HR HS HB; cbn [final_pops].
  - exists front. split; [reflexivity|]. split; [exists []; rewrite app_nil_r; reflexivity|]. apply Forall_forall. intros k Hk. apply In_znth in Hk. destruct Hk as [i Hi].
    apply (HB i k); [|exact Hi]. apply znth_range in Hi. lia.
  - destruct (znth_some front (Z.of_nat j)) as [k Hk]; [unfold zlen; lia|]. rewrite Hk. cbn [bind].
    assert (RK : 0 <= k < N) by (rewrite Forall_forall in HR; apply HR; eapply znth_In; exact Hk).
    rewrite znth_mapFin by (unfold N in *; lia). cbn [bind]. rewrite vleb_Fin. destruct (qleb_spec mn (qnth F k)) as [G|G].
    + assert (LAST : zlen front = Z.of_nat j + 1).
      { destruct (Z.eq_dec (zlen front) (Z.of_nat j + 1)) as [E|NE]; [exact E|]. exfalso.
        destruct (znth_some front (Z.of_nat j + 1)) as [k' Hk']; [unfold zlen in *; lia|].
        pose proof (HB (Z.of_nat j + 1) k' ltac:(lia) Hk') as B. 
        assert (OR : forall l i k k', StronglySorted up_stack l -> znth l i = Ok k -> znth l (i + 1) = Ok k' -> up_stack k k').
        { clear. induction l as [|a l IHl]; intros i k k' HS E1 E2; [apply znth_range in E1; change (zlen (@nil Z)) with 0 in E1; lia|].
          inversion HS; subst. pose proof (znth_range _ _ _ E1). rewrite znth_consS in E2 by lia. replace (i + 1 - 1) with i in E2 by lia.
          destruct (Z.eq_dec i 0) as [->|N0].
          - rewrite znth_cons0 in E1. injection E1 as <-. rewrite Forall_forall in H2. apply H2. eapply znth_In; exact E2.
          - rewrite znth_consS in E1 by lia. apply (IHl (i - 1)); auto. replace (i - 1 + 1) with i by lia. exact E2. }
        pose proof (OR _ _ _ _ HS Hk Hk') as [_ U]. unfold f in B. tlra. }
      assert (NEF : front <> []) by (intros ->; rewrite zlen_nil in LAST; lia).
      pose proof (zlen_removelast front NEF) as LR. destruct (removelast_prefix front) as [suf SUF].
      destruct (IH (removelast front)) as (out & E & (suf' & P) & Q).
      * unfold zlen in LR, LAST. lia.
      * rewrite SUF in HR. apply Forall_app in HR. apply HR.
      * rewrite SUF in HS. clear -HS. set (l := removelast front) in *. clearbody l. induction l as [|a l IHl]; [constructor|]. cbn in HS. inversion HS; subst. constructor; [auto|]. apply Forall_app in H2. apply H2.
      * intros i k' Hi Ei. apply znth_range in Ei. lia.
      * exists out. split; [exact E|]. split; [|exact Q]. exists (suf' ++ suf). rewrite SUF, P at 1. rewrite app_assoc. reflexivity.
    + apply Qcnot_le_lt in G. apply IH; [lia|exact HR|exact HS|]. intros i k' Hi Ei. destruct (Z.eq_dec i (Z.of_nat j)) as [->|NE]; [rewrite Hk in Ei; injection Ei as <-; exact G|]. apply (HB i); [lia|exact Ei].
Qed.
End Mono.

Lemma below_from_idx (L : list (Qc * Qc)) : forall off idx,
  StronglySorted Z.lt idx -> Forall (fun k => off <= k < off + zlen L) idx ->
  (forall k j p q, In k idx -> k < j -> znth L (k - off) = Ok p -> znth L (j - off) = Ok q -> (fst p < fst q)%Qc) ->
  exists out, mapM (fun i => znth L (i - off)) idx = Ok out /\ below_later out L.
Proof.
  induction L as [|x L IH]; intros off idx HS HR HB.
  - destruct idx as [|k idx]; [exists []; split; [reflexivity|constructor]|]. inversion HR; subst. rewrite zlen_nil in *. lia.
  - assert (SH : forall idx, Forall (fun k => off + 1 <= k < off + 1 + zlen L) idx -> mapM (fun i => znth (x :: L) (i - off)) idx = mapM (fun i => znth L (i - (off + 1))) idx).
    { intros id Hid. apply mapM_ext. intros k Hk. rewrite Forall_forall in Hid. specialize (Hid k Hk). cbn in Hid. rewrite znth_consS by lia. f_equal. lia. }
    assert (HIN : forall idx, StronglySorted Z.lt idx -> Forall (fun k => off + 1 <= k < off + 1 + zlen L) idx -> (forall k, In k idx -> forall j p q, k < j -> znth (x :: L) (k - off) = Ok p -> znth (x :: L) (j - off) = Ok q -> (fst p < fst q)%Qc) ->
       exists out, mapM (fun i => znth L (i - (off + 1))) idx = Ok out /\ below_later out L).
    { intros id H1 H2 H3. apply IH; [exact H1|exact H2|]. intros k j p q Hk Hj Ek Ej. rewrite Forall_forall in H2. specialize (H2 k Hk). cbn in H2.
      apply (H3 k Hk j p q Hj); rewrite znth_consS by lia; [rewrite <- Ek|rewrite <- Ej]; f_equal; lia. }
    destruct idx as [|k idx].
    + destruct (HIN [] HS ltac:(constructor)) as (out & E & B); [intros k []|]. cbn in E. injection E as <-. exists []. split; [reflexivity|]. constructor. exact B.
    + inversion HS as [|? ? S1 S2]; inversion HR as [|? ? R1 R2]; subst. rewrite zlen_cons in R1. destruct (Z.eq_dec k off) as [->|NK].
      * assert (RR : Forall (fun k => off + 1 <= k < off + 1 + zlen L) idx).
        { rewrite Forall_forall in *. intros k Hk. specialize (S2 k Hk). specialize (R2 k Hk). cbn in *. rewrite zlen_cons in R2. lia. }
        destruct (HIN idx S1 RR) as (out & E & B).
        { intros k Hk j p q Hj. apply (HB k j); [right; exact Hk|exact Hj]. }
        exists (x :: out). split.
        -- cbn [mapM]. replace (off - off) with 0 by lia. rewrite znth_cons0. cbn [bind]. rewrite SH, E by exact RR. reflexivity.
        -- constructor; [exact B|]. apply Forall_forall. intros q Hq. apply In_znth in Hq. destruct Hq as [i Hi]. pose proof (znth_range _ _ _ Hi).
           apply (HB off (off + 1 + i)); [left; reflexivity|lia|replace (off - off) with 0 by lia; apply znth_cons0|]. rewrite znth_consS by lia. rewrite <- Hi. f_equal. lia.
      * assert (RR : Forall (fun k => off + 1 <= k < off + 1 + zlen L) (k :: idx)).
        { rewrite Forall_forall in *. intros k' [<-|Hk']; [lia|]. specialize (S2 k' Hk'). specialize (R2 k' Hk'). cbn in *. rewrite zlen_cons in R2. lia. }
        destruct (HIN (k :: idx) HS RR) as (out & E & B).
        { intros k' Hk' j p q Hj. apply (HB k' j); [exact Hk'|exact Hj]. }
        exists out. split; [rewrite SH by exact RR; exact E|]. constructor. exact B.
Qed.
Lemma below_later_subseq out l : below_later out l -> subseq out l.
Proof. induction 1; constructor; assumption. Qed.
Lemma subseq_Forall {A} (P : A -> Prop) l m : subseq l m -> Forall P m -> Forall P l.
Proof. induction 1; intros HF; [constructor|inversion HF; auto|inversion HF; constructor; auto]. Qed.
Lemma below_later_increasing out l : below_later out l -> increasing (map fst out).
Proof.
  induction 1 as [| |x l m B IH FA]; [constructor|assumption|]. cbn. constructor; [exact IH|]. apply Forall_map. eapply subseq_Forall; [|exact FA]. apply below_later_subseq. exact B.
Qed.
Lemma mapM_proj {A B} (g : A -> B) (L : list A) idx out : mapM (fun i => znth L i) idx = Ok out -> mapM (fun i => znth (map g L) i) idx = Ok (map g out).
Proof.
  revert out. induction idx as [|k idx IH]; cbn; intros out E; [injection E as <-; reflexivity|].
  apply bind_Ok in E. destruct E as (a & E1 & E). apply bind_Ok in E. destruct E as (b & E2 & E). injection E as <-.
  rewrite znth_map, E1. cbn. rewrite (IH b E2). reflexivity.
Qed.

Lemma mono_start (F : list Qc) : F <> [] -> minv F 1 (MS [0] false (Fin (qnth F 0)) (Fin (qnth F 0)) (Fin (qnth F 0))).
Proof.
  intros NE. exists (qnth F 0), (qnth F 0). cbn. split; [reflexivity|]. split; [reflexivity|]. split; [reflexivity|].
  split; [constructor; [lia|constructor]|]. split; [constructor; constructor|]. split; [constructor; [apply Qcle_refl|constructor]|]. intros k j [<-|[]] Hj. lia.
Qed.
Lemma mono_loop (F : list Qc) : F <> [] -> exists s, foldM (mono_step (map Fin F)) (MS [0] false (Fin (qnth F 0)) (Fin (qnth F 0)) (Fin (qnth F 0))) (zrange 1 (zlen F)) = Ok s /\ minv F (zlen F) s.
Proof.
  intros NE. pose proof (zlen_pos' F NE). apply (foldM_range (mono_step (map Fin F)) (minv F) 1 (zlen F)); [lia|apply mono_start; exact NE|].
  intros i s Hi HI. apply mono_step_inv; [lia|exact HI].
Qed.
Lemma mono_same (F : list Qc) : F <> [] -> steps_above tol F ->
  foldM (mono_step (map Fin F)) (MS [0] false (Fin (qnth F 0)) (Fin (qnth F 0)) (Fin (qnth F 0))) (zrange 1 (zlen F)) =
  Ok (MS (rev (zrange 0 (zlen F))) false (Fin (qnth F 0)) (Fin (qnth F (zlen F - 1))) (Fin (qnth F (zlen F - 1)))).
Proof.
  intros NE HS. pose proof (zlen_pos' F NE).
  destruct (foldM_range (mono_step (map Fin F)) (fun i s => s = MS (rev (zrange 0 i)) false (Fin (qnth F 0)) (Fin (qnth F (i - 1))) (Fin (qnth F (i - 1)))) 1 (zlen F)
    (MS [0] false (Fin (qnth F 0)) (Fin (qnth F 0)) (Fin (qnth F 0)))) as (s & E & HI); [lia|reflexivity| |rewrite E, HI; reflexivity].
  intros i s Hi ->. unfold mono_step. rewrite znth_mapFin by lia. cbn [bind ms_dev ms_prev ms_idx ms_min ms_max]. rewrite vadd_Fin, vleb_Fin.
  pose proof (HS (i - 1) ltac:(lia) ltac:(lia)) as K. replace (i - 1 + 1) with i in K by lia.
  destruct (qleb_spec (qnth F i) (qnth F (i - 1) + tol)) as [G|G]; [exfalso; tlra|]. eexists. split; [reflexivity|].
  rewrite (zrange_snoc 0 (i + 1)) by lia. rewrite rev_app_distr. cbn. replace (i + 1 - 1) with i by lia. reflexivity.
Qed.

Lemma c29_all ref fcst : zlen ref = zlen fcst -> complete_pairs fcst ref <> [] ->
  exists out, monotonize_curve ref fcst = Ok (map (fun p => Fin (snd p)) out, map (fun p => Fin (fst p)) out) /\
    subseq out (complete_pairs fcst ref) /\ increasing (map fst out) /\ below_later out (complete_pairs fcst ref) /\
    (steps_above tol (map fst (complete_pairs fcst ref)) -> out = complete_pairs fcst ref).
Proof.
  intros HL NE. unfold monotonize_curve. replace (zlen ref =? zlen fcst) with true by lia. cbn [negb].
  assert (NZ : zlen ref <> 0).
  { intros E. apply zlen_0_nil in E. subst ref. apply NE. destruct fcst as [|v ?]; [reflexivity|]. destruct v; reflexivity. }
  replace (zlen ref =? 0) with false by lia. rewrite kept_pairs. set (L := complete_pairs fcst ref) in *. rewrite !map_map. cbn [fst snd].
  set (F := map fst L). assert (EF : map (fun x : Qc * Qc => Fin (fst x)) L = map Fin F) by (unfold F; rewrite map_map; reflexivity).
  assert (NF : F <> []) by (unfold F; destruct L; [congruence|discriminate]).
  pose proof (zlen_pos' F NF) as PF. assert (LF : zlen F = zlen L) by (unfold F; apply zlen_map).
  rewrite EF, znth_mapFin by lia. cbn [bind]. rewrite zlen_map, <- LF.
  assert (FIN : forall idx out, mapM (fun i => znth L i) idx = Ok out ->
    (out_ref <- mapM (fun i => znth (map (fun x : Qc * Qc => Fin (snd x)) L) i) idx ;; out_fcst <- mapM (fun i => znth (map Fin F) i) idx ;; Ok (out_ref, out_fcst)) =
    Ok (map (fun p => Fin (snd p)) out, map (fun p => Fin (fst p)) out)).
  { intros idx out E. rewrite (mapM_proj _ _ _ _ E). cbn [bind]. rewrite <- EF, (mapM_proj _ _ _ _ E). reflexivity. }
  assert (BUILD : forall idx, StronglySorted (up_stack F) idx -> Forall (fun k => 0 <= k < zlen F) idx ->
     (forall k j, In k idx -> k < j < zlen F -> (qnth F k < qnth F j)%Qc) -> exists out, mapM (fun i => znth L i) idx = Ok out /\ below_later out L).
  { intros idx H1 H2 H3. destruct (below_from_idx L 0 idx) as (out & E & B).
    - clear -H1. induction H1 as [|a l S IH FA]; constructor; [exact IH|]. eapply Forall_impl; [|exact FA]. intros b [K _]. exact K.
    - rewrite LF in H2. exact H2.
    - intros k j p q Hk Hj Ek Ej. rewrite Z.sub_0_r in Ek, Ej. pose proof (znth_range _ _ _ Ej). pose proof (znth_range _ _ _ Ek).
      assert (GP : forall k p, znth L k = Ok p -> fst p = qnth F k).
      { clear -LF. intros k p E. pose proof (znth_range _ _ _ E). assert (E2 : znth F k = Ok (fst p)) by (unfold F; rewrite znth_map, E; reflexivity). rewrite qnth_znth in E2 by lia. congruence. }
      rewrite (GP _ _ Ek), (GP _ _ Ej). apply H3; [exact Hk|lia].
    - exists out. split; [|exact B]. rewrite <- E. apply mapM_ext. intros. rewrite Z.sub_0_r. reflexivity. }
  destruct (mono_loop F NF) as (s & ES & HI). rewrite ES. cbn [bind].
  assert (RES : exists idx out, (if ms_dev s then final_pops (map Fin F) (ms_min s) (length (rev (ms_idx s))) (rev (ms_idx s)) else Ok (rev (ms_idx s))) = Ok idx /\
     mapM (fun i => znth L i) idx = Ok out /\ below_later out L).
  { destruct HI as (mn & mx & E1 & E2 & E3 & R & S & M & LL).
    pose proof (rev_sorted F _ S) as RS. pose proof (Forall_rev R) as RR.
    destruct (ms_dev s) eqn:ED.
    - rewrite E1. destruct (final_pops_ok F mn (length (rev (ms_idx s))) (rev (ms_idx s))) as (idx & EI & (suf & P) & B); [lia|exact RR|exact RS| |].
      { intros i k Hi Ei. apply znth_range in Ei. unfold zlen in Ei. lia. }
      destruct (BUILD idx) as (out & EO & BO).
      + rewrite P in RS. clear -RS. induction idx as [|a l IHl]; [constructor|]. cbn in RS. inversion RS; subst. constructor; [auto|]. apply Forall_app in H2. apply H2.
      + rewrite P in RR. apply Forall_app in RR. apply RR.
      + intros k j Hk Hj. apply LL; [apply in_rev; rewrite P; apply in_or_app; auto|exact Hj|]. intros _. rewrite Forall_forall in B. apply B. exact Hk.
      + eauto.
    - destruct (BUILD (rev (ms_idx s)) RS RR) as (out & EO & BO).
      + intros k j Hk Hj. apply LL; [apply in_rev; exact Hk|exact Hj|discriminate].
      + eauto. }
  destruct RES as (idx & out & EI & EO & BO). rewrite EI. cbn [bind]. exists out. split; [apply FIN; exact EO|].
  split; [apply below_later_subseq; exact BO|]. split; [eapply below_later_increasing; exact BO|]. split; [exact BO|].
  intros SA. rewrite (mono_same F NF SA) in ES. injection ES as <-. cbn [ms_dev ms_idx] in EI. rewrite rev_involutive in EI. injection EI as <-.
  rewrite LF in EO. pose proof (mapM_zrange_znth (fun a => Ok a) L) as K. rewrite (mapM_ok (fun a => Ok a) (fun a => a)) in K by reflexivity. rewrite map_id in K.
  assert (K2 : mapM (fun i => znth L i) (zrange 0 (zlen L)) = Ok L).
  { rewrite <- K. apply mapM_ext. intros i _. destruct (znth L i); reflexivity. }
  congruence.
Qed.
Lemma c30_partial ref fcst : zlen ref = zlen fcst -> complete_pairs fcst ref <> [] -> exists out, monotonize_curve ref fcst = Ok out.
Proof. intros HL NE. destruct (c29_all ref fcst HL NE) as (out & E & _). eauto. Qed.
Lemma c30_refuted : exists ref fcst, fcst <> [] /\ zlen ref = zlen fcst /\ monotonize_curve ref fcst = UB.
Proof. exists [NaN], [fz 1]. split; [discriminate|]. split; reflexivity. Qed.
Lemma c30_exact ref fcst : zlen ref = zlen fcst -> fcst <> [] -> (monotonize_curve ref fcst = UB <-> complete_pairs fcst ref = []).
Proof.
  intros HL NE. split.
  - intros E. destruct (complete_pairs fcst ref) eqn:C; [reflexivity|]. destruct (c30_partial ref fcst HL) as (out & EO); [rewrite C; discriminate|]. congruence.
  - intros C. unfold monotonize_curve. replace (zlen ref =? zlen fcst) with true by lia. cbn [negb]. pose proof (zlen_pos' fcst NE). replace (zlen ref =? 0) with false by lia.
    rewrite kept_pairs, C. reflexivity.
Qed.
