(** C45: gridding_nearest. *)
From Verif Require Import Base ListLib M_Stat M_Geo M_Near M_Grd S_Stat S_Neigh S_Geo S_Near P_Geo P_Neighbours P_Grid P_Points P_Stat P_Even P_NeighAll P_Near P_Grd.

Lemma pick_from_snoc {A} test (l : list A) a : forall k, pick_from k test (l ++ [a]) = pick_from k test l ++ (if test (k + zlen l) then [a] else []).
Proof.
  induction l as [|b l IH]; intros k; cbn.
  - change (zlen (@nil A)) with 0. replace (k + 0) with k by lia. destruct (test k); reflexivity.
  - rewrite IH, zlen_cons. replace (k + 1 + zlen l) with (k + (zlen l + 1)) by lia. destruct (test k); reflexivity.
Qed.
Lemma firstn_snoc {A} (l : list A) k a : znth l k = Ok a -> firstn (Z.to_nat (k + 1)) l = firstn (Z.to_nat k) l ++ [a].
Proof.
  intros H. apply znth_Ok in H as [Hk H]. replace (Z.to_nat (k + 1)) with (S (Z.to_nat k)) by lia.
  revert l H. induction (Z.to_nat k) as [|n IH]; intros [|b l] H; cbn in *; try discriminate; [congruence|]. f_equal. apply IH. exact H.
Qed.
Lemma zlen_firstn {A} (l : list A) k : 0 <= k <= zlen l -> zlen (firstn (Z.to_nat k) l) = k.
Proof. intros H. unfold zlen in *. rewrite firstn_length. lia. Qed.
Lemma zz_eqb_eq a b : zz_eqb a b = true <-> a = b.
Proof.
  destruct a as [a1 a2], b as [b1 b2]. unfold zz_eqb. cbn. rewrite andb_true_iff, !Z.eqb_eq. split; [intros [-> ->]; reflexivity|intros H; injection H; auto].
Qed.

Lemma cell_stat_ok E min_num st l : 0 <= min_num -> stat_listed st -> exists x, cell_stat E min_num st l = Ok x /\ cell_value E min_num st l x.
Proof.
  intros Hm Hst. unfold cell_stat, cell_value. destruct (stat_of_calc E l st Hst) as (x & Hx & SX).
  destruct l as [|a l].
  - exists MV. split; [reflexivity|]. repeat split; auto. congruence.
  - pose proof (zlen_nonneg l). rewrite (proj2 (Z.ltb_lt 0 _)) by (rewrite zlen_cons; lia).
    destruct (Z.leb_spec min_num 0); cbn [orb]; [|destruct (Z.leb_spec min_num (zlen (a :: l)))].
    + exists x. split; [exact Hx|]. split; [discriminate|]. split; [rewrite zlen_cons; lia|]. intros _ _. exact SX.
    + exists x. split; [exact Hx|]. split; [discriminate|]. split; [lia|]. intros _ _. exact SX.
    + exists MV. split; [reflexivity|]. split; [discriminate|]. split; [reflexivity|]. lia.
Qed.

(** ** conservation *)
Section Conserve.
Context {C : Type} (eqb : C -> C -> bool) (eqb_eq : forall a b, eqb a b = true <-> a = b).
Variable w : val -> Qc.
Lemma sum_zero L : qsum (map (fun _ : C => 0%Qc) L) = 0%Qc.
Proof. induction L as [|c L IH]; cbn; [reflexivity|]. rewrite IH. ring. Qed.
Lemma sum_add (f g : C -> Qc) L : qsum (map (fun c => (f c + g c)%Qc) L) = (qsum (map f L) + qsum (map g L))%Qc.
Proof. induction L as [|c L IH]; cbn; [ring|]. rewrite IH. ring. Qed.
Lemma sum_one (L : list C) c x : NoDup L -> In c L -> qsum (map (fun d => if eqb c d then x else 0%Qc) L) = x.
Proof.
  intros ND Hin. induction L as [|d L IH]; [destruct Hin|]. inversion ND as [|? ? Hn ND']; subst. cbn.
  destruct (eqb c d) eqn:E.
  - apply eqb_eq in E. subst d. assert (K : qsum (map (fun d => if eqb c d then x else 0%Qc) L) = 0%Qc).
    { clear IH ND ND' Hin. induction L as [|e L IH]; [reflexivity|]. cbn. destruct (eqb c e) eqn:E.
      - apply eqb_eq in E. subst e. exfalso; apply Hn; left; reflexivity.
      - rewrite IH; [ring|]. intros K; apply Hn; right; exact K. }
    rewrite K. ring.
  - destruct Hin as [->|Hin]; [|rewrite IH by assumption; ring].
    assert (eqb c c = true) by (apply eqb_eq; reflexivity). congruence.
Qed.
Lemma conserve (cell : Z -> C) L : NoDup L -> forall values k, (forall s, k <= s < k + zlen values -> In (cell s) L) ->
  qsum (map (fun c => qsum (map w (pick_from k (fun s => eqb (cell s) c) values))) L) = qsum (map w values).
Proof.
  intros ND values. induction values as [|a v IH]; intros k H; cbn [pick_from map qsum].
  - apply sum_zero.
  - rewrite zlen_cons in H. pose proof (zlen_nonneg v). rewrite <- (IH (k + 1)) by (intros; apply H; lia).
    rewrite <- (sum_one L (cell k) (w a)) at 1; [|exact ND|apply H; lia]. rewrite <- sum_add. f_equal. apply map_ext. intros c.
    destruct (eqb (cell k) c); cbn; ring.
Qed.
End Conserve.
Lemma vsum_map {A} (f : A -> val) (g : A -> Qc) L : (forall a, In a L -> match f a with Fin q => q = g a | _ => g a = 0%Qc end) ->
  vsum_finite (map f L) = qsum (map g L).
Proof.
  induction L as [|a L IH]; intros H; [reflexivity|]. cbn. pose proof (H a (or_introl eq_refl)) as K.
  rewrite <- IH by (intros; apply H; right; assumption). destruct (f a); rewrite K; ring.
Qed.
Definition w_count (v : val) : Qc := match v with Fin _ => 1%Qc | _ => 0%Qc end.
Definition w_sum (v : val) : Qc := match v with Fin q => q | _ => 0%Qc end.
Lemma sum_w_count l : qsum (map w_count l) = qlen (finites l).
Proof.
  induction l as [|v l IH]; [reflexivity|]. cbn. rewrite IH. destruct v; cbn; try ring.
  unfold qlen. rewrite zlen_cons. rewrite qz_add. change (qz 1) with 1%Qc. ring.
Qed.
Lemma sum_w_sum l : qsum (map w_sum l) = qsum (finites l).
Proof. induction l as [|v l IH]; [reflexivity|]. cbn. rewrite IH. destruct v; cbn; ring. Qed.
(** value of one cell for Count and Sum *)
Lemma cell_count E min_num l x : min_num <= 1 -> cell_value E min_num Count l x -> match x with Fin q => q = qsum (map w_count l) | _ => qsum (map w_count l) = 0%Qc end.
Proof.
  intros Hm (H1 & H2 & H3). rewrite sum_w_count. destruct l as [|a l]; [rewrite (H1 eq_refl); reflexivity|].
  pose proof (zlen_nonneg l). specialize (H3 ltac:(discriminate)). rewrite zlen_cons in H3. specialize (H3 ltac:(lia)).
  unfold stat_of in H3. destruct (finites (a :: l)); rewrite H3; reflexivity.
Qed.
Lemma cell_sum E min_num l x : min_num <= 1 -> cell_value E min_num Sum l x -> match x with Fin q => q = qsum (map w_sum l) | _ => qsum (map w_sum l) = 0%Qc end.
Proof.
  intros Hm (H1 & H2 & H3). rewrite sum_w_sum. destruct l as [|a l]; [rewrite (H1 eq_refl); reflexivity|].
  pose proof (zlen_nonneg l). specialize (H3 ltac:(discriminate)). rewrite zlen_cons in H3. specialize (H3 ltac:(lia)).
  unfold stat_of in H3. destruct (finites (a :: l)); rewrite H3; reflexivity.
Qed.

(** ** grid *)
Lemma collect_grid Y X (cell : Z -> Z * Z) (values : vec) (step : list (list vec) -> Z -> res (list (list vec))) :
  0 <= Y -> 0 <= X ->
  (forall s, 0 <= s < zlen values -> 0 <= fst (cell s) < Y /\ 0 <= snd (cell s) < X) ->
  (forall temp s, 0 <= s < zlen values -> step temp s = v <- znth values s ;; t <- get2 temp (fst (cell s)) (snd (cell s)) ;; set2 temp (fst (cell s)) (snd (cell s)) (t ++ [v])) ->
  exists temp, foldM step (init2 Y X []) (zrange 0 (zlen values)) = Ok temp /\ rect Y X temp /\
  forall y x, 0 <= y < Y -> 0 <= x < X -> get2 temp y x = Ok (pick (fun s => zz_eqb (cell s) (y, x)) values).
Proof.
  intros HY HX HC HS. pose proof (zlen_nonneg values).
  destruct (foldM_range step (fun k temp => rect Y X temp /\ forall y x, 0 <= y < Y -> 0 <= x < X ->
     get2 temp y x = Ok (pick (fun s => zz_eqb (cell s) (y, x)) (firstn (Z.to_nat k) values))) 0 (zlen values) (init2 Y X [])) as (temp & Ht & HR & K).
  - lia.
  - split; [apply rect_init2; lia|]. intros y x Hy Hx. change (Z.to_nat 0) with O. cbn.
    unfold init2. rewrite get2_map_zrange by lia. reflexivity.
  - intros k temp Hk [HR K]. destruct (znth_some values k) as [v Hv]; [lia|]. rewrite HS by lia. rewrite Hv. cbn [bind].
    destruct (HC k Hk) as [C1 C2]. rewrite K by lia. cbn [bind].
    destruct (rect_set2 Y X temp (fst (cell k)) (snd (cell k)) (pick (fun s => zz_eqb (cell s) (fst (cell k), snd (cell k))) (firstn (Z.to_nat k) values) ++ [v]) HR C1 C2) as (t' & Ht' & HR' & K').
    exists t'. split; [exact Ht'|]. split; [exact HR'|]. intros y x Hy Hx. rewrite K' by lia.
    rewrite (firstn_snoc _ _ _ Hv). unfold pick. rewrite pick_from_snoc, zlen_firstn by lia. replace (0 + k) with k by lia.
    unfold zz_eqb at 3. cbn [fst snd]. rewrite (Z.eqb_sym (fst (cell k))), (Z.eqb_sym (snd (cell k))).
    destruct (Z.eqb_spec y (fst (cell k))) as [->|]; cbn [andb]; [|rewrite app_nil_r; apply K; lia].
    destruct (Z.eqb_spec x (snd (cell k))) as [->|]; cbn [andb]; [|rewrite app_nil_r; apply K; lia]. reflexivity.
  - exists temp. split; [exact Ht|]. split; [exact HR|]. intros y x Hy Hx. rewrite K by lia. do 2 f_equal.
    apply firstn_all2. unfold zlen. lia.
Qed.
Lemma concat_rect {A} Y X (a : list (list A)) (d : A) : 0 <= Y -> 0 <= X -> rect Y X a ->
  concat a = map (fun c => match get2 a (fst c) (snd c) with Ok v => v | _ => d end) (list_prod (zrange 0 Y) (zrange 0 X)).
Proof.
  intros HY HX R. assert (E : a = map (fun y => map (fun x => match get2 a y x with Ok v => v | _ => d end) (zrange 0 X)) (zrange 0 Y)).
  { apply (rect_ext Y X); [exact R|apply rect_map_zrange; lia|]. intros i j Hi Hj. rewrite get2_map_zrange by lia.
    destruct (rect_get2 _ _ _ _ _ R Hi Hj) as [v ->]. reflexivity. }
  rewrite E at 1. generalize (zrange 0 Y). intros l. induction l as [|y l IH]; [reflexivity|]. cbn. rewrite map_app, map_map. cbn. f_equal. exact IH.
Qed.
Lemma NoDup_prod {A B} (l : list A) (m : list B) : NoDup l -> NoDup m -> NoDup (list_prod l m).
Proof.
  intros Hl Hm. induction l as [|a l IH]; [constructor|]. inversion Hl as [|? ? Hn Hl']; subst. cbn.
  apply NoDup_app_intro.
  - clear -Hm. induction Hm as [|b m Hb Hm IH]; [constructor|]. cbn. constructor; [|exact IH].
    rewrite in_map_iff. intros (c & E & Hc). injection E as ->. contradiction.
  - apply IH. exact Hl'.
  - intros [x y] H1 H2. apply in_map_iff in H1 as (c & E & _). injection E as <- _. apply in_prod_iff in H2 as [H2 _]. contradiction.
Qed.

Definition asg_cell G og ip s : Z * Z :=
  match ('(lat, lon) <- pt_loc ip s ;; lookup_grid G og lat lon) with Ok c => c | _ => (-1, -1) end.
Lemma gridding_nearest_g_ok E G t las los ip t' Y X lats lons og values min_num st : geo_ok G -> is_points G t las los ip ->
  is_grid G t' Y X lats lons og -> valid_all t' las -> zlen values = zlen las -> 0 <= min_num -> stat_listed st ->
  (forall s la lo, znth las s = Ok la -> znth los s = Ok lo -> closest (grid_at' G t' lats lons) (position G t' la lo) true (asg_cell G og ip s)) /\
  (forall s, 0 <= s < zlen values -> 0 <= fst (asg_cell G og ip s) < Y /\ 0 <= snd (asg_cell G og ip s) < X) /\
  exists out, gridding_nearest_g E G og ip values min_num st = Ok out /\ rect Y X out /\
  forall y x, 0 <= y < Y -> 0 <= x < X ->
    exists v, get2 out y x = Ok v /\ cell_value E min_num st (pick (fun s => zz_eqb (asg_cell G og ip s) (y, x)) values) v.
Proof.
  intros HG HI HO HV HL Hm Hst. pose proof (is_grid_pos _ _ _ _ _ _ _ HO) as [HY HX].
  destruct (points_inv _ _ _ _ _ HI) as (HLL & E1 & E2 & _).
  assert (C : forall s la lo, znth las s = Ok la -> znth los s = Ok lo ->
     ('(lat, lon) <- pt_loc ip s ;; lookup_grid G og lat lon) = Ok (asg_cell G og ip s) /\
     0 <= fst (asg_cell G og ip s) < Y /\ 0 <= snd (asg_cell G og ip s) < X /\
     closest (grid_at' G t' lats lons) (position G t' la lo) true (asg_cell G og ip s)).
  { intros s la lo Hla Hlo. destruct (cell_of_spec G t' Y X lats lons og HG HO la lo) as (K1 & K2 & K3 & K4); [eapply valid_znth; eauto|].
    assert (EQ : ('(lat, lon) <- pt_loc ip s ;; lookup_grid G og lat lon) = Ok (cell_of G og la lo)).
    { unfold pt_loc. rewrite E1, E2, !znth_map, Hla, Hlo. cbn [bind]. exact K1. }
    assert (asg_cell G og ip s = cell_of G og la lo) as -> by (unfold asg_cell; rewrite EQ; reflexivity). auto. }
  assert (C' : forall s, 0 <= s < zlen values -> exists la lo, znth las s = Ok la /\ znth los s = Ok lo).
  { intros s Hs. destruct (znth_some las s) as [la Hla]; [lia|]. destruct (znth_some los s) as [lo Hlo]; [lia|]. eauto. }
  split. { intros s la lo Hla Hlo. apply C; assumption. }
  assert (RG : forall s, 0 <= s < zlen values -> 0 <= fst (asg_cell G og ip s) < Y /\ 0 <= snd (asg_cell G og ip s) < X).
  { intros s Hs. destruct (C' s Hs) as (la & lo & Hla & Hlo). destruct (C s la lo Hla Hlo) as (_ & ? & ? & _). auto. }
  split; [exact RG|].
  unfold gridding_nearest_g, compat_points1. rewrite (ip_size _ _ _ _ _ HI), <- HL, Z.eqb_refl. cbn [negb].
  rewrite (proj2 (Z.ltb_ge min_num 0)) by lia. rewrite (grid_size_ok _ _ _ _ _ _ _ HO). cbn [bind].
  match goal with |- context [foldM ?f _ _] => destruct (collect_grid Y X (asg_cell G og ip) values f) as (temp & Ht & HR & K) end; [lia|lia|exact RG| |].
  { intros temp s Hs. destruct (C' s Hs) as (la & lo & Hla & Hlo). destruct (C s la lo Hla Hlo) as (EQ & _).
    destruct (pt_loc ip s) as [[lat lon]| | |]; try discriminate. cbn [bind] in EQ |- *. rewrite EQ. cbn [bind].
    destruct (asg_cell G og ip s) as [iY iX]. reflexivity. }
  rewrite Ht. cbn [bind]. rewrite for2_init_tab by lia.
  destruct (tab2_total Y X (fun y x => t0 <- get2 temp y x ;; cell_stat E min_num st t0)
    (fun y x v => cell_value E min_num st (pick (fun s => zz_eqb (asg_cell G og ip s) (y, x)) values) v)) as (out & Ho & HRo & Ko); [lia|lia| |].
  { intros y x Hy Hx. rewrite K by lia. cbn [bind]. apply cell_stat_ok; assumption. }
  exists out. split; [apply omp_ok, Ho|]. split; [exact HRo|]. intros y x Hy Hx. destruct (Ko y x Hy Hx) as (v & Hv & _ & P). eauto.
Qed.
Lemma vsum_rect Y X out (f : Z * Z -> Qc) : 0 <= Y -> 0 <= X -> rect Y X out ->
  (forall y x, 0 <= y < Y -> 0 <= x < X -> exists v, get2 out y x = Ok v /\ match v with Fin q => q = f (y, x) | _ => f (y, x) = 0%Qc end) ->
  vsum_finite (concat out) = qsum (map f (list_prod (zrange 0 Y) (zrange 0 X))).
Proof.
  intros HY HX R H. rewrite (concat_rect Y X out MV) by assumption. apply vsum_map. intros [y x] Hin. apply in_prod_iff in Hin as [H1 H2].
  apply in_zrange in H1, H2. cbn [fst snd]. destruct (H y x H1 H2) as (v & -> & K). exact K.
Qed.
Lemma c45_grid : forall E G t las los ip t' Y X lats lons og values, geo_ok G -> is_points G t las los ip ->
  is_grid G t' Y X lats lons og -> valid_all t' las -> zlen values = zlen las ->
  exists cell : Z -> Z * Z,
  (forall s la lo, znth las s = Ok la -> znth los s = Ok lo -> closest (grid_at' G t' lats lons) (position G t' la lo) true (cell s)) /\
  (forall min_num st, 0 <= min_num -> stat_listed st -> exists out, gridding_nearest_g E G og ip values min_num st = Ok out /\ rect Y X out /\
     forall y x, 0 <= y < Y -> 0 <= x < X ->
       exists v, get2 out y x = Ok v /\ cell_value E min_num st (pick (fun s => zz_eqb (cell s) (y, x)) values) v) /\
  (forall min_num, 0 <= min_num <= 1 ->
     (exists out, gridding_nearest_g E G og ip values min_num Count = Ok out /\ vsum_finite (concat out) = qlen (finites values)) /\
     (exists out, gridding_nearest_g E G og ip values min_num Sum = Ok out /\ vsum_finite (concat out) = qsum (finites values))) /\
  (forall vs min_num st, min_num < 0 \/ zlen vs <> zlen las -> gridding_nearest_g E G og ip vs min_num st = Throw InvalidArgument).
Proof.
  intros E G t las los ip t' Y X lats lons og values HG HI HO HV HL. pose proof (is_grid_pos _ _ _ _ _ _ _ HO) as [HY HX].
  exists (asg_cell G og ip).
  assert (SUM : forall st w min_num, (st = Count /\ w = w_count \/ st = Sum /\ w = w_sum) -> 0 <= min_num <= 1 ->
     exists out, gridding_nearest_g E G og ip values min_num st = Ok out /\ vsum_finite (concat out) = qsum (map w values)).
  { intros st w min_num Hw Hm.
    destruct (gridding_nearest_g_ok E G t las los ip t' Y X lats lons og values min_num st) as (_ & RG & out & Ho & HR & K); try assumption; [lia| |].
    { unfold stat_listed. destruct Hw as [[-> _]|[-> _]]; tauto. }
    exists out. split; [exact Ho|].
    rewrite (vsum_rect Y X out (fun c => qsum (map w (pick (fun s => zz_eqb (asg_cell G og ip s) c) values)))); [|lia|lia|exact HR|].
    2:{ intros y x Hy Hx. destruct (K y x Hy Hx) as (v & Hv & CV). exists v. split; [exact Hv|].
        destruct Hw as [[-> ->]|[-> ->]]; [eapply cell_count; [|exact CV]; lia|eapply cell_sum; [|exact CV]; lia]. }
    apply (conserve zz_eqb zz_eqb_eq w); [apply NoDup_prod; apply NoDup_zrange|].
    intros s Hs. destruct (RG s) as [R1 R2]; [lia|]. destruct (asg_cell G og ip s) as [y x]. apply in_prod; apply in_zrange; assumption. }
  split; [|split; [|split]].
  - destruct (gridding_nearest_g_ok E G t las los ip t' Y X lats lons og values 0 Mean) as (H & _); try assumption; [lia|unfold stat_listed; tauto].
  - intros min_num st Hm Hst. destruct (gridding_nearest_g_ok E G t las los ip t' Y X lats lons og values min_num st) as (_ & _ & H); assumption.
  - intros min_num Hm. rewrite <- sum_w_count, <- sum_w_sum. split; apply SUM; auto.
  - intros vs min_num st H. unfold gridding_nearest_g, compat_points1. rewrite (ip_size _ _ _ _ _ HI).
    destruct (Z.eqb_spec (zlen las) (zlen vs)); [|reflexivity]. cbn [negb]. destruct (Z.ltb_spec min_num 0); [reflexivity|]. lia.
Qed.

(** ** points *)
Lemma collect_points N (cell : Z -> Z) (values : vec) (step : list vec -> Z -> res (list vec)) :
  0 <= N ->
  (forall s, 0 <= s < zlen values -> 0 <= cell s < N) ->
  (forall temp s, 0 <= s < zlen values -> step temp s = v <- znth values s ;; t <- znth temp (cell s) ;; zset temp (cell s) (t ++ [v])) ->
  exists temp, foldM step (init1 N []) (zrange 0 (zlen values)) = Ok temp /\ zlen temp = N /\
  forall n, 0 <= n < N -> znth temp n = Ok (pick (fun s => cell s =? n) values).
Proof.
  intros HN HC HS. pose proof (zlen_nonneg values).
  destruct (foldM_range step (fun k temp => zlen temp = N /\ forall n, 0 <= n < N ->
     znth temp n = Ok (pick (fun s => cell s =? n) (firstn (Z.to_nat k) values))) 0 (zlen values) (init1 N [])) as (temp & Ht & HR & K).
  - lia.
  - split; [apply zlen_init1; lia|]. intros n Hn. change (Z.to_nat 0) with O. cbn.
    unfold init1. rewrite znth_map_zrange by lia. reflexivity.
  - intros k temp Hk [HR K]. destruct (znth_some values k) as [v Hv]; [lia|]. rewrite HS by lia. rewrite Hv. cbn [bind].
    pose proof (HC k Hk) as C1. rewrite K by lia. cbn [bind]. rewrite zset_Ok by lia.
    eexists. split; [reflexivity|]. split; [rewrite zlen_lset; exact HR|]. intros n Hn. rewrite znth_lset by lia.
    rewrite (firstn_snoc _ _ _ Hv). unfold pick. rewrite pick_from_snoc, zlen_firstn by lia. replace (0 + k) with k by lia.
    rewrite (Z.eqb_sym (cell k)). destruct (Z.eqb_spec n (cell k)) as [->|]; [reflexivity|]. rewrite app_nil_r. apply K; lia.
  - exists temp. split; [exact Ht|]. split; [exact HR|]. intros n Hn. rewrite K by lia. do 2 f_equal.
    apply firstn_all2. unfold zlen. lia.
Qed.
Definition asg_idx G op ip s : Z :=
  match ('(lat, lon) <- pt_loc ip s ;; points_nearest G op lat lon true) with Ok c => c | _ => -1 end.
Lemma gridding_nearest_p_ok E G t las los ip t' las' los' op values min_num st : geo_ok G -> is_points G t las los ip ->
  is_points G t' las' los' op -> las' <> [] -> valid_all t' las -> zlen values = zlen las -> 0 <= min_num -> stat_listed st ->
  (forall s la lo, znth las s = Ok la -> znth los s = Ok lo -> closest (point_at G t' las' los') (position G t' la lo) true (asg_idx G op ip s)) /\
  (forall s, 0 <= s < zlen values -> 0 <= asg_idx G op ip s < zlen las') /\
  exists out, gridding_nearest_p E G op ip values min_num st = Ok out /\ zlen out = zlen las' /\
  forall n, 0 <= n < zlen las' ->
    exists v, znth out n = Ok v /\ cell_value E min_num st (pick (fun s => asg_idx G op ip s =? n) values) v.
Proof.
  intros HG HI HO HN HV HL Hm Hst.
  destruct (points_inv _ _ _ _ _ HI) as (HLL & E1 & E2 & _). pose proof (zlen_nonneg las').
  assert (C : forall s la lo, znth las s = Ok la -> znth los s = Ok lo ->
     ('(lat, lon) <- pt_loc ip s ;; points_nearest G op lat lon true) = Ok (asg_idx G op ip s) /\
     0 <= asg_idx G op ip s < zlen las' /\
     closest (point_at G t' las' los') (position G t' la lo) true (asg_idx G op ip s)).
  { intros s la lo Hla Hlo. destruct (idx_of_spec G t' las' los' op HG HO HN la lo) as (K1 & K2 & K3); [eapply valid_znth; eauto|].
    assert (EQ : ('(lat, lon) <- pt_loc ip s ;; points_nearest G op lat lon true) = Ok (idx_of G op la lo)).
    { unfold pt_loc. rewrite E1, E2, !znth_map, Hla, Hlo. cbn [bind]. exact K1. }
    assert (asg_idx G op ip s = idx_of G op la lo) as -> by (unfold asg_idx; rewrite EQ; reflexivity). auto. }
  assert (C' : forall s, 0 <= s < zlen values -> exists la lo, znth las s = Ok la /\ znth los s = Ok lo).
  { intros s Hs. destruct (znth_some las s) as [la Hla]; [lia|]. destruct (znth_some los s) as [lo Hlo]; [lia|]. eauto. }
  split. { intros s la lo Hla Hlo. apply C; assumption. }
  assert (RG : forall s, 0 <= s < zlen values -> 0 <= asg_idx G op ip s < zlen las').
  { intros s Hs. destruct (C' s Hs) as (la & lo & Hla & Hlo). destruct (C s la lo Hla Hlo) as (_ & ? & _). auto. }
  split; [exact RG|].
  unfold gridding_nearest_p, compat_points1. rewrite (ip_size _ _ _ _ _ HI), <- HL, Z.eqb_refl, (ip_size _ _ _ _ _ HO). cbn [negb].
  rewrite (proj2 (Z.ltb_ge min_num 0)) by lia. cbn [bind].
  match goal with |- context [foldM ?f _ _] => destruct (collect_points (zlen las') (asg_idx G op ip) values f) as (temp & Ht & HR & K) end; [lia|exact RG| |].
  { intros temp s Hs. destruct (C' s Hs) as (la & lo & Hla & Hlo). destruct (C s la lo Hla Hlo) as (EQ & _).
    destruct (pt_loc ip s) as [[lat lon]| | |]; try discriminate. cbn [bind] in EQ |- *. rewrite EQ. cbn [bind]. reflexivity. }
  rewrite Ht. cbn [bind]. rewrite for1_init_tab by lia.
  destruct (mapM_total (fun n => t0 <- znth temp n ;; cell_stat E min_num st t0)
    (fun n v => cell_value E min_num st (pick (fun s => asg_idx G op ip s =? n) values) v) (zrange 0 (zlen las'))) as (out & Ho & HRo & Ko).
  { intros n Hn. apply in_zrange in Hn. rewrite K by lia. cbn [bind]. apply cell_stat_ok; assumption. }
  rewrite zlen_zrange in HRo.
  exists out. split; [apply omp_ok, Ho|]. split; [lia|]. intros n Hn. destruct (Ko n n) as (v & Hv & P). { rewrite znth_zrange by lia. f_equal; lia. } exists v. split; [exact Hv|apply P].
Qed.
Lemma c45_points : forall E G t las los ip t' las' los' op values, geo_ok G -> is_points G t las los ip ->
  is_points G t' las' los' op -> las' <> [] -> valid_all t' las -> zlen values = zlen las ->
  exists idx : Z -> Z,
  (forall s la lo, znth las s = Ok la -> znth los s = Ok lo -> closest (point_at G t' las' los') (position G t' la lo) true (idx s)) /\
  (forall min_num st, 0 <= min_num -> stat_listed st -> exists out, gridding_nearest_p E G op ip values min_num st = Ok out /\ zlen out = zlen las' /\
     forall n, 0 <= n < zlen las' ->
       exists v, znth out n = Ok v /\ cell_value E min_num st (pick (fun s => idx s =? n) values) v) /\
  (forall min_num, 0 <= min_num <= 1 ->
     (exists out, gridding_nearest_p E G op ip values min_num Count = Ok out /\ vsum_finite out = qlen (finites values)) /\
     (exists out, gridding_nearest_p E G op ip values min_num Sum = Ok out /\ vsum_finite out = qsum (finites values))) /\
  (forall vs min_num st, min_num < 0 \/ zlen vs <> zlen las -> gridding_nearest_p E G op ip vs min_num st = Throw InvalidArgument).
Proof.
  intros E G t las los ip t' las' los' op values HG HI HO HN HV HL. pose proof (zlen_nonneg las').
  exists (asg_idx G op ip).
  assert (SUM : forall st w min_num, (st = Count /\ w = w_count \/ st = Sum /\ w = w_sum) -> 0 <= min_num <= 1 ->
     exists out, gridding_nearest_p E G op ip values min_num st = Ok out /\ vsum_finite out = qsum (map w values)).
  { intros st w min_num Hw Hm.
    destruct (gridding_nearest_p_ok E G t las los ip t' las' los' op values min_num st) as (_ & RG & out & Ho & HR & K); try assumption; [lia| |].
    { unfold stat_listed. destruct Hw as [[-> _]|[-> _]]; tauto. }
    exists out. split; [exact Ho|].
    assert (EO : out = map (fun n => match znth out n with Ok v => v | _ => MV end) (zrange 0 (zlen las'))).
    { apply znth_ext; [rewrite zlen_map, zlen_zrange; lia|]. intros n Hn. rewrite znth_map_zrange by lia.
      replace (0 + n) with n by lia. destruct (K n) as (v & Hv & _); [lia|]. rewrite Hv. reflexivity. }
    rewrite EO. rewrite (vsum_map _ (fun n => qsum (map w (pick (fun s => asg_idx G op ip s =? n) values)))).
    - apply (conserve Z.eqb Z.eqb_eq w); [apply NoDup_zrange|]. intros s Hs. apply in_zrange. apply RG. lia.
    - intros n Hn. apply in_zrange in Hn. destruct (K n Hn) as (v & Hv & CV). rewrite Hv.
      destruct Hw as [[-> ->]|[-> ->]]; [eapply cell_count; [|exact CV]; lia|eapply cell_sum; [|exact CV]; lia]. }
  split; [|split; [|split]].
  - destruct (gridding_nearest_p_ok E G t las los ip t' las' los' op values 0 Mean) as (H0 & _); try assumption; [lia|unfold stat_listed; tauto].
  - intros min_num st Hm Hst. destruct (gridding_nearest_p_ok E G t las los ip t' las' los' op values min_num st) as (_ & _ & H0); assumption.
  - intros min_num Hm. rewrite <- sum_w_count, <- sum_w_sum. split; apply SUM; auto.
  - intros vs min_num st H0. unfold gridding_nearest_p, compat_points1. rewrite (ip_size _ _ _ _ _ HI).
    destruct (Z.eqb_spec (zlen las) (zlen vs)); [|reflexivity]. cbn [negb]. destruct (Z.ltb_spec min_num 0); [reflexivity|]. lia.
Qed.
