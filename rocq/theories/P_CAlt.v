(** The client's altitude calibrator. *)
From Verif Require Import Base ListLib QcTac M_Stat M_COpt M_CUtil S_CUtil P_CUtil M_CCal S_CCal P_CCal M_CTree S_CTree P_CTree M_CPar S_CPar P_CPar P_CGrad M_CDiag S_CDiag.
Local Open Scope Z_scope.

Lemma set2_ok {A} nY nX (a : list (list A)) i j v : rect nY nX a -> 0 <= i < nY -> 0 <= j < nX ->
  exists b, set2 a i j v = Ok b /\ rect nY nX b /\ get2 b i j = Ok v /\ forall i' j', (i', j') <> (i, j) -> get2 b i' j' = get2 a i' j'.
Proof.
  intros [L R] Hi Hj. destruct (znth_some a i) as [r Er]; [lia|]. assert (Lr : zlen r = nX) by (apply R; eapply znth_In; eauto). unfold set2. rewrite Er. cbn [bind]. rewrite zset_Ok by lia. cbn [bind]. rewrite zset_Ok by lia. eexists. split; [reflexivity|]. split; [|split].
  - split; [rewrite zlen_lset; exact L|]. intros r' Hr'. apply In_znth in Hr' as [k Hk]. rewrite znth_lset in Hk by lia. destruct (Z.eqb_spec k i); [injection Hk as <-; rewrite zlen_lset; exact Lr|]. apply R. eapply znth_In; eauto.
  - unfold get2. rewrite znth_lset by lia. rewrite Z.eqb_refl. cbn [bind]. rewrite znth_lset by lia. rewrite Z.eqb_refl. reflexivity.
  - intros i' j' N. unfold get2. rewrite znth_lset by lia. destruct (Z.eqb_spec i' i) as [->|]; [|reflexivity]. rewrite Er. cbn [bind]. rewrite znth_lset by lia. destruct (Z.eqb_spec j' j) as [->|]; [congruence|reflexivity].
Qed.
Lemma grid_loop {A} nY nX (F : Z -> Z -> A -> res A) : forall l a, rect nY nX a -> NoDup l -> (forall i j, In (i, j) l -> 0 <= i < nY /\ 0 <= j < nX) -> (forall i j z, In (i, j) l -> get2 a i j = Ok z -> exists v, F i j z = Ok v) ->
  exists b, foldM (fun a c => let '(i, j) := c in z <- get2 a i j ;; v <- F i j z ;; set2 a i j v) a l = Ok b /\ rect nY nX b /\
    (forall i j, In (i, j) l -> exists z v, get2 a i j = Ok z /\ F i j z = Ok v /\ get2 b i j = Ok v) /\ (forall i j, ~ In (i, j) l -> get2 b i j = get2 a i j).
Proof.
  induction l as [|[i j] l IH]; intros a HR ND HI HF; cbn [foldM]; [exists a; split; [reflexivity|]; split; [exact HR|]; split; [intros ? ? []|auto]|].
  destruct (HI i j (or_introl eq_refl)) as [Hi Hj]. destruct (rect_get2 nY nX a i j HR Hi Hj) as [z Ez]. destruct (HF i j z (or_introl eq_refl) Ez) as [v Ev]. rewrite Ez. cbn [bind]. rewrite Ev. cbn [bind].
  destruct (set2_ok nY nX a i j v HR Hi Hj) as (a1 & E1 & R1 & G1 & O1). rewrite E1. cbn [bind]. inversion ND as [|? ? N1 N2]; subst. destruct (IH a1 R1 N2) as (b & Eb & Rb & Gb & Ob).
  - intros i' j' H. apply HI. right. auto.
  - intros i' j' z' H E. rewrite O1 in E by (intros K; rewrite K in H; contradiction). apply (HF i' j' z'); [right; auto|exact E].
  - exists b. split; [exact Eb|]. split; [exact Rb|]. split.
    + intros i' j' [K|H]; [injection K as <- <-; exists z, v; rewrite Ob by auto; auto|]. destruct (Gb i' j' H) as (z' & v' & A1 & A2 & A3). exists z', v'. rewrite O1 in A1 by (intros K; rewrite K in H; contradiction). auto.
    + intros i' j' N. rewrite Ob by (intros K; apply N; right; auto). apply O1. intros K. apply N. left. auto.
Qed.
Lemma time_zero h cycle : good_history h -> time_used h cycle 0 0.
Proof.
  intros HG. destruct (forallb (fun e => at_ e =? 0) h) eqn:E.
  - left. split; [|reflexivity]. rewrite forallb_forall in E. intros e He. apply Z.eqb_eq. apply E; auto.
  - right. split; [|split; [auto|]].
    + assert (X : exists e, In e h /\ (at_ e =? 0) = false). { clear - E. induction h as [|e h IH]; [discriminate|]. cbn in E. destruct (at_ e =? 0) eqn:K; [|exists e; split; [left|]; auto]. destruct (IH E) as (e' & H1 & H2). exists e'. split; [right|]; auto. }
      destruct X as (e & He & N). exists e. split; auto. apply Z.eqb_neq. auto.
    + intros _. exists (top h). pose proof (top_last h (good_times h HG)) as TL. split; [exact TL|]. destruct TL as (T0 & _). split; [lia|]. exists 0. lia.
Qed.
Lemma c209 D srt cycle h f lats lons elevs nY nX : zero_at_itself D -> straight D -> sorts_items srt -> good_history h -> all_sited h -> two_places h -> set_all h (new_pfile cycle) = Ok f ->
  0 <= nY -> 0 <= nX -> rect nY nX lats -> rect nY nX lons -> rect nY nX elevs -> (forall i j, 0 <= i < nY -> 0 <= j < nX -> exists k la lo, get2 lats i j = Ok (l_lat k) /\ get2 lons i j = Ok (l_lon k) /\ sited k la lo) ->
  exists g out, recompute_tree srt f = Ok g /\ altitude_calibrator (lift4 D) g lats lons elevs nY nX = Ok out /\ rect nY nX out /\
  forall i j la lo, 0 <= i < nY -> 0 <= j < nX -> get2 lats i j = Ok (Fin la) -> get2 lons i j = Ok (Fin lo) -> exists z, get2 out i j = Ok z /\
    ((exists e p, In e h /\ nearest_with_set D h 0 la lo (where_ e) p /\ z = l_elev (where_ e)) \/ ((forall l p, latest h 0 l p -> p = []) /\ z = Fin missing_number)).
Proof.
  intros HZ HSt HSrt HG HA H2 Ef Hy Hx Rla Rlo Rel HS. destruct (c184_strong D srt cycle h f HZ HSt HSrt HG HA H2 Ef) as (g & Eg & G). exists g.
  destruct (set_all_ok h cycle HG) as (f' & E' & S & _). rewrite E' in Ef. injection Ef as ->. pose proof (several h cycle f S HG H2) as H1.
  assert (MG : p_map g = p_map f). { unfold recompute_tree in Eg. apply bind_Ok in Eg as (dep & _ & Eg). destruct dep; [|injection Eg as <-; reflexivity]. apply bind_Ok in Eg as (tr & _ & Eg). injection Eg as <-. reflexivity. }
  assert (SK : forall k la lo el, sited k la lo -> sited {| l_lat := l_lat k; l_lon := l_lon k; l_elev := el |} la lo) by (intros k la lo el (A & B & C); split; auto).
  pose proof (top_last h (good_times h HG)) as TL.
  assert (LOC : forall i j el, 0 <= i < nY -> 0 <= j < nX -> exists lat lon la lo r, get2 lats i j = Ok lat /\ get2 lons i j = Ok lon /\ lat = Fin la /\ lon = Fin lo /\ nearest_location (lift4 D) g 0 {| l_lat := lat; l_lon := lon; l_elev := el |} = Ok r /\
     match r with Some l => (exists e p, In e h /\ nearest_with_set D h 0 la lo (where_ e) p /\ l = where_ e) | None => forall l p, latest h 0 l p -> p = [] end).
  { intros i j el Hi Hj. destruct (HS i j Hi Hj) as (k & la & lo & E1 & E2 & Sk). pose proof Sk as (K1 & K2 & _).
    destruct (G 0 0 (top h) _ la lo ltac:(lia) (time_zero h cycle HG) TL ltac:(destruct TL; lia) (SK k la lo el Sk)) as [(l & p & N & _ & NL & e & He & <-)|(N & _ & NL)].
    - exists (l_lat k), (l_lon k), la, lo, (Some (where_ e)). do 5 (split; [auto|]). exists e, p. auto.
    - exists (l_lat k), (l_lon k), la, lo, None. do 5 (split; [auto|]). exact N. }
  unfold altitude_calibrator, location_dependent. rewrite MG. replace (1 <? zlen (p_map f)) with true by lia. cbn [bind negb].
  set (F := fun i j el => lat <- get2 lats i j ;; lon <- get2 lons i j ;; loc <- nearest_location (lift4 D) g 0 {| l_lat := lat; l_lon := lon; l_elev := el |} ;; Ok (match loc with Some l => l_elev l | None => CMV end)).
  set (pts := flat_map (fun i => map (fun j => (i, j)) (zrange 0 nX)) (zrange 0 nY)).
  destruct (grid_loop nY nX F pts elevs Rel (NoDup_points nY nX)) as (out & Eo & Ro & Go & _).
  - intros i j H. apply in_points in H. exact H.
  - intros i j z H _. apply in_points in H as [Hi Hj]. destruct (LOC i j z Hi Hj) as (lat & lon & la & lo & r & E1 & E2 & _ & _ & E3 & _). unfold F. rewrite E1, E2. cbn [bind]. rewrite E3. cbn [bind]. eauto.
  - exists out. split; [exact Eg|]. split; [|split; [exact Ro|]].
    + rewrite <- Eo. apply foldM_ext_in. intros a [i j] H. apply in_points in H as [Hi Hj]. unfold F. destruct (LOC i j CMV Hi Hj) as (lat & lon & la & lo & r & E1 & E2 & _). rewrite E1, E2. cbn [bind]. destruct (get2 a i j) as [z| | |]; [|reflexivity..]. cbn [bind]. destruct (nearest_location _ _ _ _); reflexivity.
    + intros i j la lo Hi Hj Ela Elo. destruct (Go i j) as (z & v & A1 & A2 & A3); [apply in_points; auto|]. exists v. split; [exact A3|]. destruct (LOC i j z Hi Hj) as (lat & lon & la' & lo' & r & E1 & E2 & -> & -> & E3 & HR). assert (la' = la) by congruence. assert (lo' = lo) by congruence. subst la' lo'.
      unfold F in A2. rewrite E1, E2 in A2. cbn [bind] in A2. rewrite E3 in A2. cbn [bind] in A2. injection A2 as <-. destruct r as [l|]; [left|right; split; [exact HR|reflexivity]]. destruct HR as (e & p & He & N & ->). exists e, p. auto.
Qed.
Lemma c209_stops gc f lats lons elevs nY nX : location_dependent f = Ok false -> altitude_calibrator gc f lats lons elevs nY nX = Abort.
Proof. intros H. unfold altitude_calibrator. rewrite H. reflexivity. Qed.
