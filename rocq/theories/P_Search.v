From Verif Require Import Base ListLib M_Stat M_Neigh M_Search S_Stat S_Neigh S_Search P_Stat P_Slice P_Neigh P_NeighAll P_NeighSafe.

Lemma mapM_concat {A B} (f : A -> res B) ll : mapM f (concat ll) = (ls <- mapM (mapM f) ll ;; Ok (concat ls)).
Proof.
  induction ll as [|l ll IH]; [reflexivity|]. cbn. rewrite mapM_app. destruct (mapM f l); cbn; try reflexivity. rewrite IH.
  destruct (mapM (mapM f) ll); reflexivity.
Qed.
Lemma mapM_map {A B C} (g : A -> B) (f : B -> res C) l : mapM f (map g l) = mapM (fun a => f (g a)) l.
Proof. induction l as [|x l IH]; [reflexivity|]. cbn. rewrite IH. reflexivity. Qed.
Lemma around_cells {A} (f : list (list A)) nY nX h y x : rect nY nX f -> 0 <= h -> 0 <= y < nY -> 0 <= x < nX ->
  mapM (fun c => get2 f (fst c) (snd c)) (window_cells nY nX y x h) = Ok (around f h y x).
Proof.
  intros [HY HR] Hh Hy Hx. unfold window_cells. rewrite mapM_concat, mapM_map.
  set (c0 := Z.max 0 (x - h)). set (c1 := Z.min (nX - 1) (x + h)).
  set (r0 := Z.max 0 (y - h)). set (r1 := Z.min (nY - 1) (y + h)).
  rewrite (mapM_ext _ (fun ii => row <- znth f ii ;; Ok (slice row c0 c1))).
  2:{ intros ii Hii. apply in_zrange in Hii. destruct (znth_some f ii ltac:(lia)) as (row & Er). rewrite mapM_map. cbn [fst snd].
      rewrite (mapM_ext _ (fun jj => znth row jj)) by (intros jj _; unfold get2; rewrite Er; reflexivity). rewrite Er. cbn [bind].
      pose proof (HR row (znth_In _ _ _ Er)). rewrite slice_znth by lia. do 2 f_equal. lia. }
  rewrite mapM_bind_map, slice_znth by lia. cbn [bind]. do 2 f_equal. unfold around.
  rewrite (slice_clip f (y - h) (y + h)). fold r0. replace (Z.min (zlen f - 1) (y + h)) with r1 by (unfold r1; lia).
  replace (r1 + 1 - 1) with r1 by lia. f_equal. apply map_ext_in. intros row Hr. apply in_slice in Hr as (i & _ & Er).
  rewrite (slice_clip row (x - h) (x + h)), (HR row (znth_In _ _ _ Er)). reflexivity.
Qed.
Lemma zlen_combine {A B} (a : list A) (b : list B) : zlen a = zlen b -> zlen (combine a b) = zlen a.
Proof. unfold zlen. intros H. rewrite combine_length. lia. Qed.
Lemma znth_combine {A B} (a : list A) (b : list B) i : znth (combine a b) i = (x <- znth a i ;; y <- znth b i ;; Ok (x, y)).
Proof.
  unfold znth. destruct (i <? 0); [reflexivity|]. generalize (Z.to_nat i). clear i. intros n. revert b n.
  induction a as [|x a IH]; intros [|y b] [|n]; cbn; try reflexivity.
  - destruct (nth_error a n); reflexivity.
  - apply IH.
Qed.
Lemma pair2_rect nY nX (a b : vec2) : rect nY nX a -> rect nY nX b -> rect nY nX (pair2 a b).
Proof.
  intros [A1 A2] [B1 B2]. unfold pair2. split; [rewrite zlen_map, zlen_combine by lia; exact A1|].
  intros r Hr. apply in_map_iff in Hr as ([ra rb] & <- & Hr). cbn. pose proof (A2 _ (in_combine_l _ _ _ _ Hr)). pose proof (B2 _ (in_combine_r _ _ _ _ Hr)).
  rewrite zlen_combine by lia. assumption.
Qed.
Lemma pair2_get (a b : vec2) y x u v : get2 a y x = Ok u -> get2 b y x = Ok v -> get2 (pair2 a b) y x = Ok (u, v).
Proof.
  unfold get2, pair2. intros H1 H2. apply bind_Ok in H1 as (ra & Ea & Eu). apply bind_Ok in H2 as (rb & Eb & Ev).
  rewrite znth_map, znth_combine, Ea, Eb. cbn. rewrite znth_combine, Eu, Ev. reflexivity.
Qed.
Lemma window_cells_range nY nX y x h c : In c (window_cells nY nX y x h) -> 0 <= fst c < nY /\ 0 <= snd c < nX.
Proof.
  unfold window_cells. intros H. apply in_concat in H as (l & Hl & Hc). apply in_map_iff in Hl as (yy & <- & Hy). apply in_map_iff in Hc as (xx & <- & Hx).
  apply in_zrange in Hy, Hx. cbn. lia.
Qed.
Lemma mapM_prefix {A B} (f : A -> res B) l a r : mapM f (l ++ [a]) = Ok r -> exists r' b, mapM f l = Ok r' /\ f a = Ok b /\ r = r' ++ [b].
Proof.
  rewrite mapM_app. intros H. apply bind_Ok in H as (r' & E1 & H). apply bind_Ok in H as (s & E2 & H). cbn in E2. apply bind_Ok in E2 as (b & E2 & E3).
  cbn in E3. injection E3 as <-. injection H as <-. eauto.
Qed.
Lemma first_nearest_snoc key l c p : first_nearest key l c ->
  (qltb (key p) (key c) = true -> first_nearest key (l ++ [p]) p) /\ (qltb (key p) (key c) = false -> first_nearest key (l ++ [p]) c).
Proof.
  intros (pre & post & -> & P1 & P2). split; intros H.
  - exists (pre ++ c :: post), []. split; [rewrite <- !app_assoc; reflexivity|]. split; [|intros q []].
    destruct (qltb_spec (key p) (key c)) as [L|]; [|discriminate]. intros q Hq. apply in_app_or in Hq as [Hq|[<-|Hq]]; [|exact L|].
    + eapply Qclt_trans; [exact L|apply P1, Hq].
    + eapply Qclt_le_trans; [exact L|apply P2, Hq].
  - exists pre, (post ++ [p]). split; [rewrite <- app_assoc; reflexivity|]. split; [exact P1|]. intros q Hq. apply in_app_or in Hq as [Hq|[<-|[]]]; [apply P2, Hq|].
    destruct (qltb_spec (key p) (key c)) as [|L]; [discriminate|]. apply Qcnot_lt_le. exact L.
Qed.
(** the distance computed by the code is the distance to the range, for values outside it *)
Lemma vabs_Fin a : vabs (Fin a) = Fin (qabs a). Proof. reflexivity. Qed.
Lemma vsub_Fin a b : vsub (Fin a) (Fin b) = Fin (a - b)%Qc. Proof. reflexivity. Qed.
Lemma target_dist_out tmin tmax s v : (tmin <= tmax)%Qc -> in_target tmin tmax (Fin s, v) = false ->
  target_dist (Fin tmin) (Fin tmax) (Fin s) = Fin (range_dist tmin tmax (Fin s, v)).
Proof.
  intros HT. unfold in_target, range_dist, target_dist, vmin. cbn [fst]. rewrite !vsub_Fin, !vabs_Fin. unfold qabs. cbn [vltb].
  destruct (qleb_spec tmin s), (qleb_spec s tmax); cbn [andb]; intros K; try discriminate K;
    destruct (qltb_spec (s - tmin) 0), (qltb_spec (s - tmax) 0), (qltb_spec s tmin), (qltb_spec tmax s); try (exfalso; qlra);
    match goal with |- context [if qltb ?a ?b then _ else _] => destruct (qltb_spec a b) end; try (exfalso; qlra); f_equal; (ring || (apply Qcle_antisym; qlra)).
Qed.

Section Cell.
Variables (array search : vec2) (tmin tmax delta own : Qc).
Hypothesis HT : (tmin <= tmax)%Qc.
Definition cells_of (ps : list (val * val)) := filter both_finite ps.
Definition hits_of ps := filter (in_target tmin tmax) (cells_of ps).
Definition others_of ps := filter (differs own delta) (cells_of ps).
Definition srel (ps : list (val * val)) (s : sstate) : Prop :=
  ss_n s = zlen (hits_of ps) /\ ss_acc s = Fin (qsum (finites (map snd (hits_of ps)))) /\
  (hits_of ps = [] ->
     (others_of ps = [] /\ ss_near s = MV) \/
     (exists c, first_nearest (range_dist tmin tmax) (others_of ps) c /\ ss_near s = fst c /\ get2 search (ss_y s) (ss_x s) = Ok (fst c) /\
        get2 array (ss_y s) (ss_x s) = Ok (snd c) /\ is_valid (fst c) = true)).
Lemma srel_start : srel [] (SS MV 0 0 0 (fz 0)).
Proof. split; [reflexivity|]. split; [reflexivity|]. intros _. left. split; reflexivity. Qed.
Lemma differs_code s : vleb (Fin delta) (vabs (vsub (Fin s) (Fin own))) = differs own delta (Fin s, MV).
Proof.
  rewrite vsub_Fin, vabs_Fin, vleb_Fin. unfold differs. cbn [fst]. unfold qabs.
  destruct (qltb_spec (s - own) 0); destruct (qleb_spec delta (s - own)), (qleb_spec delta (own - s)); cbn;
    try match goal with |- qleb ?a ?b = _ => destruct (qleb_spec a b) end; try reflexivity; exfalso; qlra.
Qed.
Lemma srel_step ps s c p : srel ps s -> get2 search (fst c) (snd c) = Ok (fst p) -> get2 array (fst c) (snd c) = Ok (snd p) ->
  exists s', search_step array search (Fin tmin) (Fin tmax) (Fin delta) (Fin own) true s c = Ok s' /\ srel (ps ++ [p]) s'.
Proof.
  intros (R1 & R2 & R3) E1 E2. unfold search_step. rewrite E1, E2. cbn [bind].
  assert (APP : cells_of (ps ++ [p]) = cells_of ps ++ (if both_finite p then [p] else [])) by (unfold cells_of; rewrite filter_app; reflexivity).
  destruct p as [sv av]. cbn [fst snd] in *.
  destruct (both_finite (sv, av)) eqn:BF.
  2:{ assert (negb (is_valid sv) || negb (is_valid av) = true) as -> by (unfold both_finite in BF; cbn in BF; destruct (is_valid sv), (is_valid av); try discriminate; reflexivity).
      exists s. split; [reflexivity|]. unfold srel, hits_of, others_of. rewrite APP, app_nil_r. exact (conj R1 (conj R2 R3)). }
  destruct sv as [| | |sv]; try discriminate BF. destruct av as [| | |av]; try discriminate BF. cbn [is_valid negb orb].
  assert (HH : hits_of (ps ++ [(Fin sv, Fin av)]) = hits_of ps ++ (if in_target tmin tmax (Fin sv, Fin av) then [(Fin sv, Fin av)] else [])) by (unfold hits_of; rewrite APP, filter_app; reflexivity).
  assert (HO : others_of (ps ++ [(Fin sv, Fin av)]) = others_of ps ++ (if differs own delta (Fin sv, Fin av) then [(Fin sv, Fin av)] else [])) by (unfold others_of; rewrite APP, filter_app; reflexivity).
  rewrite !vleb_Fin. change (qleb tmin sv && qleb sv tmax) with (in_target tmin tmax (Fin sv, Fin av)).
  destruct (in_target tmin tmax (Fin sv, Fin av)) eqn:IT.
  - eexists. split; [reflexivity|]. unfold srel. rewrite HH. cbn [ss_n ss_acc]. split; [|split].
    + rewrite R1, zlen_app. reflexivity.
    + rewrite R2, map_app, finites_app, qsum_app. cbn. f_equal. ring.
    + intros K. apply app_eq_nil in K as [_ K]. discriminate.
  - rewrite app_nil_r in HH. destruct (0 <? ss_n s) eqn:LN.
    + exists s. split; [reflexivity|]. unfold srel. rewrite HH. split; [exact R1|]. split; [exact R2|]. intros K. rewrite K in R1. change (zlen (@nil (val * val))) with 0 in R1. lia.
    + assert (HN : hits_of ps = []) by (apply zlen_0_nil; pose proof (zlen_nonneg (hits_of ps)); lia). specialize (R3 HN).
      rewrite differs_code. change (differs own delta (Fin sv, MV)) with (differs own delta (Fin sv, Fin av)).
      destruct (differs own delta (Fin sv, Fin av)) eqn:DF.
      * destruct R3 as [[O1 O2]|(c0 & F & N1 & G1 & G2 & V)].
        -- rewrite O2. cbn [is_valid MV negb]. eexists. split; [reflexivity|]. unfold srel. rewrite HH, HO. cbn [ss_n ss_acc ss_near ss_y ss_x]. split; [exact R1|]. split; [exact R2|].
           intros _. right. exists (Fin sv, Fin av). rewrite O1. split; [exists [], []; split; [reflexivity|split; intros ? []]|]. auto.
        -- rewrite N1, V. cbn [negb]. destruct c0 as [cs cv]. cbn [fst snd] in *. destruct cs as [| | |cs]; try discriminate V.
           assert (OUT0 : in_target tmin tmax (Fin cs, cv) = false).
           { destruct F as (pre & post & EO & _). assert (IN : In (Fin cs, cv) (others_of ps)) by (rewrite EO; apply in_or_app; right; left; reflexivity).
             unfold others_of in IN. apply filter_In in IN as [IN _]. destruct (in_target tmin tmax (Fin cs, cv)) eqn:T0; [|reflexivity].
             assert (IN2 : In (Fin cs, cv) (hits_of ps)) by (apply filter_In; auto). rewrite HN in IN2. destruct IN2. }
           rewrite (target_dist_out tmin tmax sv (Fin av) HT IT), (target_dist_out tmin tmax cs cv HT OUT0). cbn [vltb].
           destruct (first_nearest_snoc _ _ _ (Fin sv, Fin av) F) as [FN1 FN2].
           destruct (qltb (range_dist tmin tmax (Fin sv, Fin av)) (range_dist tmin tmax (Fin cs, cv))) eqn:LT.
           ++ eexists. split; [reflexivity|]. unfold srel. rewrite HH, HO. cbn [ss_n ss_acc ss_near ss_y ss_x]. split; [exact R1|]. split; [exact R2|].
              intros _. right. exists (Fin sv, Fin av). split; [apply FN1; reflexivity|]. auto.
           ++ eexists. split; [reflexivity|]. unfold srel. rewrite HH, HO. split; [exact R1|]. split; [exact R2|].
              intros _. right. exists (Fin cs, cv). split; [apply FN2; reflexivity|]. auto.
      * rewrite app_nil_r in HO. exists s. split; [reflexivity|]. unfold srel. rewrite HH, HO. split; [exact R1|]. split; [exact R2|]. intros _. exact R3.
Qed.
Lemma srel_fold cs : forall ps, mapM (fun c => u <- get2 search (fst c) (snd c) ;; v <- get2 array (fst c) (snd c) ;; Ok (u, v)) cs = Ok ps ->
  exists s, foldM (search_step array search (Fin tmin) (Fin tmax) (Fin delta) (Fin own) true) (SS MV 0 0 0 (fz 0)) cs = Ok s /\ srel ps s.
Proof.
  induction cs as [|c cs IH] using rev_ind; intros ps H.
  - cbn in H. injection H as <-. exists (SS MV 0 0 0 (fz 0)). split; [reflexivity|apply srel_start].
  - apply mapM_prefix in H as (ps' & p & H1 & H2 & ->). destruct (IH _ H1) as (s & ES & RS). rewrite foldM_app, ES. cbn [bind].
    apply bind_Ok in H2 as (u & Eu & H2). apply bind_Ok in H2 as (v & Ev & H2). injection H2 as <-.
    destruct (srel_step ps' s c (u, v) RS Eu Ev) as (s' & ES' & RS'). exists s'. cbn. rewrite ES'. split; [reflexivity|exact RS'].
Qed.
End Cell.
Lemma finites_snd_hits tmin tmax ps : zlen (finites (map snd (hits_of tmin tmax ps))) = zlen (hits_of tmin tmax ps).
Proof.
  unfold hits_of, cells_of. induction ps as [|[s v] ps IH]; [reflexivity|]. cbn [filter]. destruct (both_finite (s, v)) eqn:B; [|exact IH].
  cbn [filter]. destruct (in_target tmin tmax (s, v)); [|exact IH]. cbn [map snd]. unfold both_finite in B. cbn in B. destruct v; try (destruct s; discriminate). cbn [finites]. rewrite !zlen_cons, IH. reflexivity.
Qed.
Lemma foldM_id {S A} (f : S -> A -> res S) s l : (forall a, In a l -> f s a = Ok s) -> foldM f s l = Ok s.
Proof. induction l as [|a l IH]; intros H; [reflexivity|]. cbn. rewrite H by (left; reflexivity). cbn. apply IH. intros; apply H; right; assumption. Qed.
Lemma search_cell_ok array search nY nX h tmin tmax delta apply y x a :
  rect nY nX array -> rect nY nX search -> 0 <= h -> (tmin <= tmax)%Qc -> 0 <= y < nY -> 0 <= x < nX ->
  (apply = [] /\ a = 1 \/ apply <> [] /\ get2 apply y x = Ok a) ->
  exists v, search_cell array search nY nX h (Fin tmin) (Fin tmax) (Fin delta) apply y x = Ok v /\
    search_value array search h tmin tmax delta a y x v.
Proof.
  intros RA RS Hh HT Hy Hx HA. unfold search_cell.
  destruct (rect_get2 nY nX search y x RS Hy Hx) as (own & Eo). destruct (rect_get2 nY nX array y x RA Hy Hx) as (orig & Er). rewrite Eo, Er. cbn [bind].
  assert (DONE : forall v, match own with
    | Fin own => if a =? 1 then searched tmin tmax delta own orig (around (pair2 search array) h y x) v else v = orig
    | _ => v = orig end -> search_value array search h tmin tmax delta a y x v).
  { intros v H own' orig' G1 G2. rewrite Eo in G1. rewrite Er in G2. injection G1 as <-. injection G2 as <-. exact H. }
  destruct own as [| | |own]; cbn [is_valid negb]; try (exists orig; split; [reflexivity|apply DONE; reflexivity]).
  assert (UA : (if 0 <? zlen apply then get2 apply y x else Ok 1) = Ok a /\ ((0 <? zlen apply) = false -> a = 1)).
  { destruct HA as [[-> ->]|[NE G]]; [split; reflexivity|]. destruct apply as [|r apply]; [congruence|]. replace (0 <? zlen (r :: apply)) with true by (rewrite zlen_cons; pose proof (zlen_nonneg apply); lia).
    split; [exact G|discriminate]. }
  destruct UA as [UA UB]. rewrite UA. cbn [bind]. set (ua := 0 <? zlen apply) in *.
  assert (GP : mapM (fun c => u <- get2 search (fst c) (snd c) ;; v <- get2 array (fst c) (snd c) ;; Ok (u, v)) (window_cells nY nX y x h) = Ok (around (pair2 search array) h y x)).
  { rewrite <- (around_cells (pair2 search array) nY nX h y x) by (try assumption; apply pair2_rect; assumption). apply mapM_ext. intros c Hc. apply window_cells_range in Hc as [C1 C2].
    destruct (rect_get2 nY nX search _ _ RS C1 C2) as (u & Eu). destruct (rect_get2 nY nX array _ _ RA C1 C2) as (v & Ev). rewrite Eu, Ev. cbn. symmetry. apply pair2_get; assumption. }
  destruct (ua && (a =? 0)) eqn:A0.
  { exists orig. split; [reflexivity|]. apply DONE. destruct (Z.eqb_spec a 1) as [->|]; [destruct ua; discriminate A0|reflexivity]. }
  destruct (negb ua || (a =? 1)) eqn:ACT.
  - assert (a = 1) as -> by (destruct ua; [cbn in ACT; lia|apply UB; reflexivity]). cbn [Z.eqb Pos.eqb] in *.
    destruct (srel_fold array search tmin tmax delta own HT _ _ GP) as (s & -> & (R1 & R2 & R3)). cbn [bind]. rewrite R1, R2.
    set (W := around (pair2 search array) h y x) in *. fold (cells_of W) in *.
    destruct (0 <? zlen (hits_of tmin tmax W)) eqn:LH.
    + eexists. split; [reflexivity|]. apply DONE. unfold searched. change (filter (in_target tmin tmax) (filter both_finite W)) with (hits_of tmin tmax W).
      destruct (hits_of tmin tmax W) as [|p l] eqn:EH; [discriminate LH|]. rewrite <- EH. unfold fz. rewrite vdiv_Fin by (rewrite EH; apply (qlen_neq0 (p :: l)); discriminate).
      unfold qmean, qlen. rewrite finites_snd_hits. reflexivity.
    + assert (EH : hits_of tmin tmax W = []) by (apply zlen_0_nil; pose proof (zlen_nonneg (hits_of tmin tmax W)); lia).
      specialize (R3 EH). destruct R3 as [[O1 O2]|(c & F & N1 & G1 & G2 & V)].
      * rewrite O2. cbn [is_valid MV]. exists orig. split; [reflexivity|]. apply DONE. unfold searched.
        change (filter (in_target tmin tmax) (filter both_finite W)) with (hits_of tmin tmax W). change (filter (differs own delta) (filter both_finite W)) with (others_of delta own W).
        rewrite EH, O1. reflexivity.
      * rewrite N1, V, G2. exists (snd c). split; [reflexivity|]. apply DONE. unfold searched.
        change (filter (in_target tmin tmax) (filter both_finite W)) with (hits_of tmin tmax W). change (filter (differs own delta) (filter both_finite W)) with (others_of delta own W).
        rewrite EH. destruct (others_of delta own W) as [|p l] eqn:EO; [destruct F as (pre & post & K & _); destruct pre; discriminate K|]. rewrite <- EO in *. eauto.
  - rewrite foldM_id.
    + cbn. exists orig. split; [reflexivity|]. apply DONE. destruct (Z.eqb_spec a 1) as [->|]; [destruct ua; discriminate ACT|reflexivity].
    + intros c Hc. apply window_cells_range in Hc as [C1 C2]. unfold search_step.
      destruct (rect_get2 nY nX search _ _ RS C1 C2) as (u & Eu). destruct (rect_get2 nY nX array _ _ RA C1 C2) as (v & Ev). rewrite Eu, Ev. cbn. destruct (negb (is_valid u) || negb (is_valid v)); reflexivity.
Qed.
Lemma rows_loop {A} nY nX (arr : vec2) (o : list (list A)) body : rect nY nX arr ->
  foldM (fun o y => row <- znth arr y ;; foldM (fun o x => v <- body y x ;; set2 o y x v) o (zrange 0 (zlen row))) o (zrange 0 nY) = for2 nY nX o body.
Proof.
  intros [A1 A2]. unfold for2. assert (G : forall l o, (forall y, In y l -> 0 <= y < nY) ->
    foldM (fun o y => row <- znth arr y ;; foldM (fun o x => v <- body y x ;; set2 o y x v) o (zrange 0 (zlen row))) o l =
    foldM (fun o i => foldM (fun o j => v <- body i j ;; set2 o i j v) o (zrange 0 nX)) o l).
  { induction l as [|y l IH]; intros o' H; [reflexivity|]. cbn. destruct (znth_some arr y) as (row & Er); [rewrite A1; apply H; left; reflexivity|]. rewrite Er. cbn [bind].
    rewrite (A2 row (znth_In _ _ _ Er)). destruct (foldM _ o' (zrange 0 nX)); cbn; try reflexivity. apply IH. intros; apply H; right; assumption. }
  apply G. intros y Hy. apply in_zrange in Hy. exact Hy.
Qed.
Lemma rect_head {A} nY nX (a : list (list A)) : rect nY nX a -> 0 < nY -> exists r, znth a 0 = Ok r /\ zlen r = nX.
Proof. intros [A1 A2] H. destruct (znth_some a 0 ltac:(lia)) as (r & Er). exists r. split; [exact Er|]. apply A2. eapply znth_In; eauto. Qed.
Lemma c26_all array search nY nX h tmin tmax delta apply :
  rect nY nX array -> rect nY nX search -> 0 < nY -> 0 <= nX -> 0 <= h -> (tmin <= tmax)%Qc -> apply = [] \/ rect nY nX apply ->
  exists out, neighbourhood_search array search h (Fin tmin) (Fin tmax) (Fin delta) apply = Ok out /\
    filtered nY nX (fun y x v => exists a, (apply = [] /\ a = 1 \/ apply <> [] /\ get2 apply y x = Ok a) /\ search_value array search h tmin tmax delta a y x v) out.
Proof.
  intros RA RS HY HX Hh HT HA. unfold neighbourhood_search. cbn [vltb]. destruct (qltb_spec tmax tmin) as [K|_]; [exfalso; qlra|]. replace (h <? 0) with false by lia.
  destruct (rect_head _ _ _ RA HY) as (a0 & Ea0 & La0). destruct (rect_head _ _ _ RS HY) as (s0 & Es0 & Ls0). rewrite (proj1 RS), (proj1 RA), Z.eqb_refl, Ea0, Es0. cbn [bind]. rewrite La0, Ls0, Z.eqb_refl. cbn [negb].
  assert (EA : (if 1 <? zlen apply then (if zlen apply =? nY then p0 <- znth apply 0 ;; a1 <- Ok a0 ;; Ok (zlen p0 =? zlen a1) else Ok false) else Ok true) = Ok true).
  { destruct HA as [->|R]; [reflexivity|]. destruct (1 <? zlen apply); [|reflexivity]. rewrite (proj1 R), Z.eqb_refl. destruct (rect_head _ _ _ R HY) as (p0 & -> & Lp). cbn. f_equal. lia. }
  cbn [bind] in EA |- *. rewrite La0 in EA. rewrite EA. cbn [bind negb]. rewrite (rows_loop nY nX) by exact RA. rewrite for2_init_tab by lia.
  destruct (tab2_total nY nX (fun y x => search_cell array search nY nX h (Fin tmin) (Fin tmax) (Fin delta) apply y x)
    (fun y x v => exists a, (apply = [] /\ a = 1 \/ apply <> [] /\ get2 apply y x = Ok a) /\ search_value array search h tmin tmax delta a y x v)) as (out & EO & RO & CO); [lia|lia| |].
  - intros y x Hy Hx. assert (exists a, apply = [] /\ a = 1 \/ apply <> [] /\ get2 apply y x = Ok a) as (a & Ha).
    { destruct HA as [->|R]; [exists 1; auto|]. destruct (rect_get2 nY nX apply y x R Hy Hx) as (a & Ga). exists a. right. split; [|exact Ga]. intros ->. destruct R as [R _]. change (zlen (@nil (list Z))) with 0 in R. lia. }
    destruct (search_cell_ok array search nY nX h tmin tmax delta apply y x a RA RS Hh HT Hy Hx Ha) as (v & Ev & Sv). exists v. split; [exact Ev|]. eauto.
  - exists out. split; [exact EO|]. split; [exact RO|]. intros y x Hy Hx. destruct (CO y x Hy Hx) as (v & C1 & _ & C2). eauto.
Qed.
Lemma c26_checks array search nY nX h tmin tmax delta apply : rect nY nX array -> 0 < nY ->
  (vltb tmax tmin = true \/ h < 0 \/ zlen search <> nY \/ (1 < zlen apply /\ zlen apply <> nY /\ rect nY nX search)) ->
  neighbourhood_search array search h tmin tmax delta apply = Throw InvalidArgument.
Proof.
  intros RA HY H. unfold neighbourhood_search. destruct (vltb tmax tmin); [reflexivity|]. destruct (h <? 0) eqn:L; [reflexivity|]. rewrite (proj1 RA).
  destruct H as [K|[K|[K|(K1 & K2 & RS)]]]; [discriminate|lia| |].
  - destruct (Z.eqb_spec (zlen search) nY); [contradiction|reflexivity].
  - destruct (rect_head _ _ _ RA HY) as (a0 & Ea0 & La0). destruct (rect_head _ _ _ RS HY) as (s0 & Es0 & Ls0). rewrite (proj1 RS), Z.eqb_refl, Ea0, Es0. cbn [bind]. rewrite La0, Ls0, Z.eqb_refl. cbn [negb].
    replace (1 <? zlen apply) with true by lia. destruct (Z.eqb_spec (zlen apply) nY); [contradiction|reflexivity].
Qed.
