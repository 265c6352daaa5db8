(** C50 and C51: probabilities and masked consensus from ensembles. *)
From Verif Require Import QcTac Base ListLib M_Stat S_Stat P_Stat P_StatAll S_Neigh P_NeighAll M_Geo S_Geo S_Near P_Geo P_Grid M_Near P_Near M_Bilin M_Down S_Down.

Lemma foldM_zrange_znth {S A} (f : S -> A -> res S) l s : foldM (fun s k => a <- znth l k ;; f s a) s (zrange 0 (zlen l)) = foldM f s l.
Proof.
  assert (G : forall pre s, foldM (fun s k => a <- znth (pre ++ l) k ;; f s a) s (zrange (zlen pre) (zlen (pre ++ l))) = foldM f s l).
  { induction l as [|x l IH]; intros pre s0.
    - rewrite app_nil_r, zrange_nil by lia. reflexivity.
    - rewrite zrange_cons by (rewrite zlen_app, zlen_cons; pose proof (zlen_nonneg l); lia). cbn [foldM].
      rewrite znth_app_r by lia. rewrite Z.sub_diag, znth_cons0. cbn [bind]. destruct (f s0 x); cbn; try reflexivity.
      specialize (IH (pre ++ [x]) a). rewrite zlen_app in IH. change (zlen [x]) with 1 in IH. rewrite <- app_assoc in IH. exact IH. }
  exact (G [] s).
Qed.
Lemma foldM_ext {S A} (f g : S -> A -> res S) l s : (forall s a, f s a = g s a) -> foldM f s l = foldM g s l.
Proof. intros H. revert s. induction l as [|a l IH]; intros s; [reflexivity|]. cbn. rewrite H. destruct (g s a); cbn; auto. Qed.
Lemma out_grid_ij {A} G t Y X lats lons og (F : Z -> Z -> val -> val -> res A) (P : Z -> Z -> A -> Prop) (init : A) : is_grid G t Y X lats lons og ->
  (forall i j la lo, get2 lats i j = Ok la -> get2 lons i j = Ok lo -> exists x, F i j (Fin la) (Fin lo) = Ok x /\ P i j x) ->
  exists out, omp (for2 Y X (init2 Y X init) (fun i j => '(lat, lon) <- out_loc og i j ;; F i j lat lon)) = Ok out /\
    rect Y X out /\ forall i j, 0 <= i < Y -> 0 <= j < X -> exists x, get2 out i j = Ok x /\ P i j x.
Proof.
  intros H HF. pose proof (is_grid_pos _ _ _ _ _ _ _ H) as [HY HX]. destruct (is_grid_rect _ _ _ _ _ _ _ H) as [R1 R2].
  pose proof (grid_inv _ _ _ _ _ _ _ H) as (E1 & E2 & _).
  destruct (tab2_total Y X (fun i j => '(lat, lon) <- out_loc og i j ;; F i j lat lon) P) as (out & Ho & Hr & K); [lia|lia| |].
  - intros i j Hi Hj. destruct (rect_get2 _ _ _ _ _ R1 Hi Hj) as [la Hla]. destruct (rect_get2 _ _ _ _ _ R2 Hi Hj) as [lo Hlo].
    unfold out_loc. rewrite E1, E2, !get2_mapmap, Hla, Hlo. cbn [bind]. apply HF; assumption.
  - exists out. rewrite for2_init_tab by lia. rewrite Ho. split; [reflexivity|]. split; [exact Hr|].
    intros i j Hi Hj. destruct (K i j Hi Hj) as (x & Hx & _ & Px). eauto.
Qed.

(** ** counting *)
Lemma compare_meets op t a : compare op (Fin a) t = meets op t a.
Proof. destruct op, t; cbn; rewrite ?P_Stat.vleb_Fin; reflexivity. Qed.
Lemma count_fold op t e : foldM (fun '(c, n) v => if is_valid v then Ok (c + 1, if compare op v t then n + 1 else n) else Ok (c, n)) (0, 0) e =
  Ok (zlen (finites e), zlen (filter (meets op t) (finites e))).
Proof.
  assert (K : forall c n, foldM (fun '(c, n) v => if is_valid v then Ok (c + 1, if compare op v t then n + 1 else n) else Ok (c, n)) (c, n) e =
    Ok (c + zlen (finites e), n + zlen (filter (meets op t) (finites e)))).
  { induction e as [|v e IH]; intros c n.
    - cbn [foldM finites filter]. change (zlen (@nil Qc)) with 0. rewrite !Z.add_0_r. reflexivity.
    - cbn [foldM]. destruct v as [| | |q]; cbn [is_valid bind finites]; try apply IH.
      rewrite compare_meets. rewrite IH. cbn [filter]. rewrite zlen_cons. destruct (meets op t q); rewrite ?zlen_cons; do 2 f_equal; lia. }
  rewrite K, !Z.add_0_l. reflexivity.
Qed.
Section Ens.
Variables (G : geo) (t : ctype) (Y X : Z) (lats lons : list (list Qc)) (ig : grid).
Hypothesis HG : geo_ok G.
Hypothesis HI : is_grid G t Y X lats lons ig.
Lemma cube_get {A} N (f : list (list (list A))) i j : cube N Y X f -> 0 <= i < Y -> 0 <= j < X -> exists e, get2 f i j = Ok e /\ zlen e = N.
Proof.
  intros [R H] Hi Hj. destruct (rect_get2 _ _ _ _ _ R Hi Hj) as [e He]. exists e. split; [exact He|].
  unfold get2 in He. apply bind_Ok in He as (r & Hr & He). eapply H; eapply znth_In; eassumption.
Qed.
Lemma prob_cell_ok N iv thr op i j la lo th : cube N Y X iv -> valid_loc t la -> get2 thr i j = Ok th ->
  exists e r, get2 iv (fst (cell_of G ig la lo)) (snd (cell_of G ig la lo)) = Ok e /\
    prob_cell G ig iv thr op N i j (Fin la) (Fin lo) = Ok r /\ prob_of op e th r.
Proof.
  intros HC V Ht. destruct (cell_of_spec G t Y X lats lons ig HG HI la lo V) as (E & H1 & H2 & _).
  destruct (cube_get N iv _ _ HC H1 H2) as (e & He & Le). exists e. unfold prob_cell. rewrite E. cbn [bind].
  destruct (cell_of G ig la lo) as [ki kj]. cbn [fst snd] in *. unfold get3. rewrite He. cbn [bind]. rewrite Ht. cbn [bind].
  assert (F : foldM (fun '(c, n) k => v <- znth e k ;; (if is_valid v then Ok (c + 1, if compare op v th then n + 1 else n) else Ok (c, n))) (0, 0) (zrange 0 N) =
     Ok (zlen (finites e), zlen (filter (meets op th) (finites e)))).
  { rewrite <- Le, <- (count_fold op th e).
    rewrite <- (foldM_zrange_znth _ e). apply foldM_ext. intros [c n] k. reflexivity. }
  rewrite F. cbn [bind]. eexists. split; [reflexivity|]. split; [reflexivity|]. split; intros K.
  - rewrite K. reflexivity.
  - destruct (Z.eqb_spec (zlen (finites e)) 0) as [Z0|Z0].
    + exfalso. apply K. destruct (finites e); [reflexivity|]. rewrite zlen_cons in Z0. pose proof (zlen_nonneg l). lia.
    + unfold fz. cbn. destruct (qeqb_spec (qz (zlen (finites e))) 0) as [Q0|Q0]; [|unfold qlen; reflexivity].
      exfalso. apply Z0. apply qz_inj. exact Q0.
Qed.
Lemma masked_ok N ivt ivf tv thr op ki kj i j th : cube N Y X ivt -> cube N Y X ivf -> cube N Y X tv -> 0 <= N -> 0 <= ki < Y -> 0 <= kj < X ->
  get2 thr i j = Ok th -> exists et ef ev w, get2 ivt ki kj = Ok et /\ get2 ivf ki kj = Ok ef /\ get2 tv ki kj = Ok ev /\
  for1 N (init1 N MV) (masked_value ivt ivf tv thr op ki kj i j) = Ok w /\ masked_ens op th et ef ev w.
Proof.
  intros H1 H2 H3 HN Hi Hj Ht. destruct (cube_get N ivt ki kj H1 Hi Hj) as (et & He & Le). destruct (cube_get N ivf ki kj H2 Hi Hj) as (ef & Hf & Lf).
  destruct (cube_get N tv ki kj H3 Hi Hj) as (ev & Hv & Lv). exists et, ef, ev. rewrite for1_init_tab by lia.
  destruct (mapM_total (masked_value ivt ivf tv thr op ki kj i j)
    (fun k m => forall v a b, znth ev k = Ok v -> znth et k = Ok a -> znth ef k = Ok b -> match v with Fin q => m = if meets op th q then a else b | _ => m = MV end)
    (zrange 0 N)) as (w & Hw & Lw & K).
  - intros k Hk. apply in_zrange in Hk. destruct (znth_some et k) as [a Ha]; [lia|]. destruct (znth_some ef k) as [b Hb]; [lia|]. destruct (znth_some ev k) as [v Hv']; [lia|].
    unfold masked_value, get3. rewrite He, Hf, Hv. cbn [bind]. rewrite Hv'. cbn [bind].
    destruct v as [| | |q]; cbn [is_valid]; try (eexists; split; [reflexivity|]; intros v' a' b' X1 X2 X3; match type of Hv' with _ = Ok ?w => replace v' with w by congruence end; reflexivity).
    rewrite Ht. cbn [bind]. rewrite compare_meets, Ha, Hb. exists (if meets op th q then a else b). split; [destruct (meets op th q); reflexivity|].
    intros v' a' b' X1 X2 X3. replace v' with (Fin q) by congruence. replace a' with a by congruence. replace b' with b by congruence. reflexivity.
  - exists w. do 3 (split; [assumption|]). split; [exact Hw|]. rewrite zlen_zrange in Lw. split; [lia|].
    intros k v a b Hv' Ha Hb. pose proof (znth_range _ _ _ Hv'). destruct (K k k) as (m & Hm & _ & P). { rewrite znth_zrange by lia. f_equal; lia. }
    exists m. split; [exact Hm|]. eapply P; eauto.
Qed.
End Ens.

(** ** laws of the probability *)
Lemma filter_len {A} (f : A -> bool) l : 0 <= zlen (filter f l) <= zlen l.
Proof.
  induction l as [|a l IH]; [cbn; unfold zlen; cbn; lia|]. cbn [filter]. destruct (f a); rewrite ?zlen_cons; lia.
Qed.
Lemma filter_compl {A} (f g : A -> bool) l : (forall a, g a = negb (f a)) -> zlen (filter f l) + zlen (filter g l) = zlen l.
Proof.
  intros H. induction l as [|a l IH]; [reflexivity|]. cbn [filter]. rewrite H. destruct (f a); cbn [negb]; rewrite !zlen_cons; lia.
Qed.
Lemma filter_mono {A} (f g : A -> bool) l : (forall a, f a = true -> g a = true) -> zlen (filter f l) <= zlen (filter g l).
Proof.
  intros H. induction l as [|a l IH]; [reflexivity|]. cbn [filter]. specialize (H a). destruct (f a), (g a); rewrite ?zlen_cons; try lia.
Qed.
Definition complement (op : cmpop) : cmpop := match op with Lt => Geq | Leq => Gt | Gt => Leq | Geq => Lt end.
Lemma meets_compl op t a : t <> NaN -> meets (complement op) t a = negb (meets op t a).
Proof.
  intros H. destruct op, t; try congruence; try reflexivity; cbn;
    match goal with |- context[qltb ?x ?y] => destruct (qltb_spec x y) end; match goal with |- context[qleb ?x ?y] => destruct (qleb_spec x y) end; try reflexivity; exfalso; qlra.
Qed.
Lemma qlen_pos {A} (l : list A) : l <> [] -> (0 < qlen l)%Qc.
Proof. intros H. unfold qlen. change 0%Qc with (qz 0). apply qz_lt. destruct l; [congruence|]. rewrite zlen_cons. pose proof (zlen_nonneg l). lia. Qed.
Lemma frac_range a n : 0 <= a <= n -> 0 < n -> (0 <= qz a / qz n <= 1)%Qc.
Proof.
  intros [H1 H2] H3. assert (0 < qz n)%Qc by (change 0%Qc with (qz 0); apply qz_lt; lia). split.
  - apply P_Stat.qle_div_iff; [assumption|]. rewrite Qcmult_0_l. change 0%Qc with (qz 0). apply qz_le. lia.
  - apply P_Stat.qdiv_le_iff; [assumption|]. rewrite Qcmult_1_l. apply qz_le. lia.
Qed.
(** comparison with a higher threshold *)
Lemma meets_mono t t' a : (t <= t')%Qc -> (meets Leq (Fin t) a = true -> meets Leq (Fin t') a = true) /\ (meets Lt (Fin t) a = true -> meets Lt (Fin t') a = true) /\
  (meets Geq (Fin t') a = true -> meets Geq (Fin t) a = true) /\ (meets Gt (Fin t') a = true -> meets Gt (Fin t) a = true).
Proof.
  intros H. cbn. repeat split; intros K.
  - destruct (qleb_spec a t); [|discriminate]. destruct (qleb_spec a t'); [reflexivity|exfalso; qlra].
  - destruct (qltb_spec a t); [|discriminate]. destruct (qltb_spec a t'); [reflexivity|exfalso; qlra].
  - destruct (qleb_spec t' a); [|discriminate]. destruct (qleb_spec t a); [reflexivity|exfalso; qlra].
  - destruct (qltb_spec t' a); [|discriminate]. destruct (qltb_spec t a); [reflexivity|exfalso; qlra].
Qed.
Lemma nil_dec {A} (l : list A) : l = [] \/ l <> []. Proof. destruct l; [left|right]; congruence. Qed.
Lemma frac_le a b n : a <= b -> 0 < n -> (qz a / qz n <= qz b / qz n)%Qc.
Proof.
  intros H1 H3. assert (P : (0 < qz n)%Qc) by (change 0%Qc with (qz 0); apply qz_lt; lia). apply P_Stat.qdiv_le_iff; [exact P|].
  replace (qz b / qz n * qz n)%Qc with (qz b) by (field; intros K; rewrite K in P; discriminate P). apply qz_le. exact H1.
Qed.
Lemma c50_laws : (forall op e t r, prob_of op e t r -> r = MV /\ finites e = [] \/ exists p, r = Fin p /\ (0 <= p <= 1)%Qc /\ finites e <> []) /\
  (forall e t r r', t <> NaN -> (prob_of Lt e t r /\ prob_of Geq e t r') \/ (prob_of Leq e t r /\ prob_of Gt e t r') ->
     r = MV /\ r' = MV \/ exists p p', r = Fin p /\ r' = Fin p' /\ (p + p' = 1)%Qc) /\
  (forall op e t t' r r', (t <= t')%Qc -> op = Lt \/ op = Leq -> prob_of op e (Fin t) r -> prob_of op e (Fin t') r' ->
     r = MV /\ r' = MV \/ exists p p', r = Fin p /\ r' = Fin p' /\ (p <= p')%Qc) /\
  (forall op e t t' r r', (t <= t')%Qc -> op = Gt \/ op = Geq -> prob_of op e (Fin t) r -> prob_of op e (Fin t') r' ->
     r = MV /\ r' = MV \/ exists p p', r = Fin p /\ r' = Fin p' /\ (p' <= p)%Qc).
Proof.
  assert (POS : forall e, finites e <> [] -> 0 < zlen (finites e)).
  { intros e H. destruct (finites e); [congruence|]. rewrite zlen_cons. pose proof (zlen_nonneg l). lia. }
  split; [|split; [|split]].
  - intros op e t r [H1 H2]. destruct (nil_dec (finites e)) as [N|N]; [left; auto|right]. eexists. split; [apply H2, N|]. split; [|exact N].
    apply frac_range; [apply filter_len|auto].
  - intros e t r r' HT [[[H1 H2] [H3 H4]]|[[H1 H2] [H3 H4]]]; (destruct (nil_dec (finites e)) as [N|N]; [left; auto|right]);
      eexists; eexists; (split; [apply H2, N|]); (split; [apply H4, N|]); unfold qlen.
    + rewrite <- (filter_compl (meets Lt t) (meets Geq t) (finites e)) by (intros a; exact (meets_compl Lt t a HT)). rewrite qz_add. field.
      rewrite <- qz_add, (filter_compl (meets Lt t) (meets Geq t) (finites e)) by (intros a; exact (meets_compl Lt t a HT)). intros K. apply qz_inj in K. specialize (POS e N). lia.
    + rewrite <- (filter_compl (meets Leq t) (meets Gt t) (finites e)) by (intros a; exact (meets_compl Leq t a HT)). rewrite qz_add. field.
      rewrite <- qz_add, (filter_compl (meets Leq t) (meets Gt t) (finites e)) by (intros a; exact (meets_compl Leq t a HT)). intros K. apply qz_inj in K. specialize (POS e N). lia.
  - intros op e t t' r r' HT [-> | ->] [H1 H2] [H3 H4]; (destruct (nil_dec (finites e)) as [N|N]; [left; auto|right]);
      eexists; eexists; (split; [apply H2, N|]); (split; [apply H4, N|]); apply frac_le; auto; apply filter_mono; intros a; apply meets_mono, HT.
  - intros op e t t' r r' HT [-> | ->] [H1 H2] [H3 H4]; (destruct (nil_dec (finites e)) as [N|N]; [left; auto|right]);
      eexists; eexists; (split; [apply H2, N|]); (split; [apply H4, N|]); apply frac_le; auto; apply filter_mono; intros a; apply meets_mono, HT.
Qed.
(** ** the properties *)
Lemma c50_all : forall G t Y X lats lons ig t' Y' X' lats' lons' og, geo_ok G -> is_grid G t Y X lats lons ig -> is_grid G t' Y' X' lats' lons' og -> valid_all2 t lats' ->
  exists cell : Z -> Z -> Z * Z,
  (forall i j la lo, get2 lats' i j = Ok la -> get2 lons' i j = Ok lo -> closest (grid_at' G t lats lons) (position G t la lo) true (cell i j)) /\
  forall N iv thr op, cube N Y X iv -> rect Y' X' thr ->
  exists out, downscale_probability G ig og iv thr op = Ok out /\ rect Y' X' out /\
  forall i j, 0 <= i < Y' -> 0 <= j < X' -> exists e th r, get2 iv (fst (cell i j)) (snd (cell i j)) = Ok e /\ get2 thr i j = Ok th /\
    get2 out i j = Ok r /\ prob_of op e th r.
Proof.
  intros G t Y X lats lons ig t' Y' X' lats' lons' og HG HI HO HV. destruct (is_grid_rect _ _ _ _ _ _ _ HO) as [R1 R2].
  exists (fun i j => match get2 lats' i j, get2 lons' i j with Ok la, Ok lo => cell_of G ig la lo | _, _ => (0, 0) end). split.
  - intros i j la lo Hla Hlo. rewrite Hla, Hlo. apply (cell_of_spec G t Y X lats lons ig HG HI la lo). eapply valid_get2; eauto.
  - intros N iv thr op HC HT. pose proof (is_grid_pos _ _ _ _ _ _ _ HI) as [HY HX]. destruct (cube_get Y X N iv 0 0 HC) as (e0 & He0 & Le0); [lia|lia|].
    unfold downscale_probability. rewrite (out_shape_ok _ _ _ _ _ _ _ HO). cbn [bind]. rewrite He0. cbn [bind]. rewrite Le0.
    destruct (out_grid_ij G t' Y' X' lats' lons' og (prob_cell G ig iv thr op N)
      (fun i j r => exists la lo e th, get2 lats' i j = Ok la /\ get2 lons' i j = Ok lo /\ get2 iv (fst (cell_of G ig la lo)) (snd (cell_of G ig la lo)) = Ok e /\ get2 thr i j = Ok th /\ prob_of op e th r)
      (fz 0) HO) as (out & Ho & Hr & K).
    { intros i j la lo Hla Hlo. destruct (get2_range _ _ _ _ _ _ R1 Hla) as [Hi Hj]. destruct (rect_get2 _ _ _ _ _ HT Hi Hj) as [th Hth].
      destruct (prob_cell_ok G t Y X lats lons ig HG HI N iv thr op i j la lo th HC) as (e & r & He & Hr & P); [eapply valid_get2; eauto|exact Hth|].
      exists r. split; [exact Hr|]. exists la, lo, e, th. auto. }
    exists out. split; [exact Ho|]. split; [exact Hr|]. intros i j Hi Hj. destruct (K i j Hi Hj) as (r & Hg & la & lo & e & th & Hla & Hlo & He & Hth & P).
    rewrite Hla, Hlo. exists e, th, r. auto.
Qed.
Lemma c51_all : forall E G t Y X lats lons ig t' Y' X' lats' lons' og, geo_ok G -> is_grid G t Y X lats lons ig -> is_grid G t' Y' X' lats' lons' og -> valid_all2 t lats' ->
  exists cell : Z -> Z -> Z * Z,
  (forall i j la lo, get2 lats' i j = Ok la -> get2 lons' i j = Ok lo -> closest (grid_at' G t lats lons) (position G t la lo) true (cell i j)) /\
  forall N ivt ivf tv thr op, 0 <= N -> cube N Y X ivt -> cube N Y X ivf -> cube N Y X tv -> rect Y' X' thr ->
  let result P out := rect Y' X' out /\ forall i j, 0 <= i < Y' -> 0 <= j < X' -> exists et ef ev th w r,
    get2 ivt (fst (cell i j)) (snd (cell i j)) = Ok et /\ get2 ivf (fst (cell i j)) (snd (cell i j)) = Ok ef /\ get2 tv (fst (cell i j)) (snd (cell i j)) = Ok ev /\
    get2 thr i j = Ok th /\ masked_ens op th et ef ev w /\ get2 out i j = Ok r /\ P w r in
  (forall st, stat_listed st -> exists out, mask_threshold_downscale_consensus E G ig og ivt ivf tv thr op st = Ok out /\
     result (fun w r => stat_of E st (finites w) r) out) /\
  (forall q, (0 <= q <= 1)%Qc -> exists out, mask_threshold_downscale_quantile E G ig og ivt ivf tv thr op (Fin q) = Ok out /\ result (fun w => quantile_of q (finites w)) out).
Proof.
  intros E G t Y X lats lons ig t' Y' X' lats' lons' og HG HI HO HV. destruct (is_grid_rect _ _ _ _ _ _ _ HO) as [R1 R2].
  exists (fun i j => match get2 lats' i j, get2 lons' i j with Ok la, Ok lo => cell_of G ig la lo | _, _ => (0, 0) end). split.
  - intros i j la lo Hla Hlo. rewrite Hla, Hlo. apply (cell_of_spec G t Y X lats lons ig HG HI la lo). eapply valid_get2; eauto.
  - intros N ivt ivf tv thr op HN H1 H2 H3 HT. pose proof (is_grid_pos _ _ _ _ _ _ _ HI) as [HY HX]. destruct (cube_get Y X N ivt 0 0 H1) as (e0 & He0 & Le0); [lia|lia|].
    assert (MAIN : forall st q (P : vec -> val -> Prop), (forall w, exists r, (if stat_eqb st Quantile then calc_quantile w q else calc_statistic E w st) = Ok r /\ P w r) ->
      exists out, mask_threshold_downscale E G ig og ivt ivf tv thr op st q = Ok out /\ rect Y' X' out /\ forall i j, 0 <= i < Y' -> 0 <= j < X' -> exists et ef ev th w r,
      let c := match get2 lats' i j, get2 lons' i j with Ok la, Ok lo => cell_of G ig la lo | _, _ => (0, 0) end in
      get2 ivt (fst c) (snd c) = Ok et /\ get2 ivf (fst c) (snd c) = Ok ef /\ get2 tv (fst c) (snd c) = Ok ev /\
      get2 thr i j = Ok th /\ masked_ens op th et ef ev w /\ get2 out i j = Ok r /\ P w r).
    { intros st q P HP. unfold mask_threshold_downscale. rewrite (out_shape_ok _ _ _ _ _ _ _ HO). cbn [bind]. rewrite He0. cbn [bind]. rewrite Le0.
      destruct (out_grid_ij G t' Y' X' lats' lons' og (fun i j lat lon => '(ki, kj) <- lookup_grid G ig lat lon ;;
           masked <- for1 N (init1 N MV) (masked_value ivt ivf tv thr op ki kj i j) ;; if stat_eqb st Quantile then calc_quantile masked q else calc_statistic E masked st)
        (fun i j r => exists la lo et ef ev th w, let c := cell_of G ig la lo in get2 lats' i j = Ok la /\ get2 lons' i j = Ok lo /\
           get2 ivt (fst c) (snd c) = Ok et /\ get2 ivf (fst c) (snd c) = Ok ef /\ get2 tv (fst c) (snd c) = Ok ev /\ get2 thr i j = Ok th /\ masked_ens op th et ef ev w /\ P w r)
        (fz 0) HO) as (out & Ho & Hr & K).
      { intros i j la lo Hla Hlo. destruct (get2_range _ _ _ _ _ _ R1 Hla) as [Hi Hj]. destruct (rect_get2 _ _ _ _ _ HT Hi Hj) as [th Hth].
        assert (V : valid_loc t la) by (eapply valid_get2; eauto). destruct (cell_of_spec G t Y X lats lons ig HG HI la lo V) as (Ec & C1 & C2 & _).
        destruct (masked_ok Y X N ivt ivf tv thr op _ _ i j th H1 H2 H3 HN C1 C2 Hth) as (et & ef & ev & w & A1 & A2 & A3 & A4 & A5).
        destruct (HP w) as (r & Hr & Pr). exists r. rewrite Ec. cbn [bind]. destruct (cell_of G ig la lo) as [ki kj] eqn:EC. cbn [fst snd] in *. rewrite A4. cbn [bind].
        split; [exact Hr|]. exists la, lo, et, ef, ev, th, w. rewrite EC. cbn [fst snd]. auto 12. }
      exists out. split; [exact Ho|]. split; [exact Hr|]. intros i j Hi Hj. destruct (K i j Hi Hj) as (r & Hg & la & lo & et & ef & ev & th & w & Hla & Hlo & A1 & A2 & A3 & A4 & A5 & A6).
      exists et, ef, ev, th, w, r. rewrite Hla, Hlo. cbn zeta. auto 12. }
    split.
    + intros st Hst. destruct (MAIN st (fz 0) (fun w r => stat_of E st (finites w) r)) as (out & Ho & Hr & K); [|exists out; split; [exact Ho|split; [exact Hr|exact K]]].
      intros w. destruct (stat_of_calc E w st Hst) as (r & Er & Pr). exists r. split; [|exact Pr].
      replace (stat_eqb st Quantile) with false; [exact Er|]. unfold stat_listed in Hst. decompose [or] Hst; subst; reflexivity.
    + intros q Hq. destruct (MAIN Quantile (Fin q) (fun w => quantile_of q (finites w))) as (out & Ho & Hr & K); [|exists out; split; [exact Ho|split; [exact Hr|exact K]]].
      intros w. destruct c04_all as (Q1 & Q2 & _). cbn [stat_eqb]. destruct (nil_dec (finites w)) as [N0|N0].
      * exists MV. split; [apply Q2; assumption|]. unfold quantile_of. rewrite N0. reflexivity.
      * destruct (Q1 w q Hq N0) as (x & Ex & Px). exists (Fin x). split; [exact Ex|]. unfold quantile_of. destruct (finites w); [congruence|]. eauto.
Qed.
