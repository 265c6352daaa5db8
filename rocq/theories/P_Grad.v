(** C52: gradient downscaling in terms of plain downscaling. *)
From Verif Require Import QcTac Base ListLib M_Stat S_Stat P_Stat S_Neigh M_Geo S_Geo S_Near P_Geo P_Grid P_Points M_Near P_Near M_Bilin P_BilinGrid M_Down S_Down.

(** one field at one location *)
Definition dloc E G ig (d : downscaler) (f : vec2) (lat lon : val) : res val :=
  match d with
  | Nearest => k <- lookup_grid G ig lat lon ;; at_grid f k
  | Bilinear => bilinear_loc E G ig f lat lon
  | OtherDownscaler => Throw InvalidArgument
  end.
Lemma Forall2_len {A B} (R : A -> B -> Prop) l m : Forall2 R l m -> zlen m = zlen l.
Proof. induction 1; rewrite ?zlen_cons; [reflexivity|lia]. Qed.
Lemma Forall2_get {A B} (R : A -> B -> Prop) l m k a : Forall2 R l m -> znth l k = Ok a -> exists b, znth m k = Ok b /\ R a b.
Proof.
  intros H. revert k. induction H as [|x y l m HR H IH]; intros k Hk.
  - apply znth_range in Hk. unfold zlen in Hk. cbn in Hk. lia.
  - destruct (Z.eq_dec k 0) as [->|N]; [rewrite znth_cons0 in Hk; injection Hk as <-; exists y; rewrite znth_cons0; auto|].
    pose proof (znth_range _ _ _ Hk). rewrite znth_consS in Hk by lia. destruct (IH _ Hk) as (b & Hb & Hr). exists b. rewrite znth_consS by lia. auto.
Qed.
Lemma mapM_Forall2 {A B} (f : A -> res B) l m : Forall2 (fun a b => f a = Ok b) l m -> mapM f l = Ok m.
Proof. induction 1 as [|a b l m H _ IH]; cbn; [reflexivity|]. rewrite H, IH. reflexivity. Qed.
Lemma Forall2_mapM {A B} (f : A -> res B) l m : mapM f l = Ok m -> Forall2 (fun a b => f a = Ok b) l m.
Proof.
  revert m. induction l as [|a l IH]; intros m H; cbn in H; [injection H as <-; constructor|].
  apply bind_Ok in H as (b & Hb & H). apply bind_Ok in H as (bs & Hs & H). injection H as <-. constructor; auto.
Qed.

Section ToGrid.
Variables (E : ext) (G : geo) (t t' : ctype) (Y X Y' X' : Z) (lats lons lats' lons' : list (list Qc)) (ig og : grid) (d : downscaler).
Hypothesis HI : is_grid G t Y X lats lons ig.
Hypothesis HO : is_grid G t' Y' X' lats' lons' og.
Lemma down_gg2_tab f : rect Y X f -> d <> OtherDownscaler ->
  downscaling_gg2 E G ig og f d = omp (tab2 Y' X' (fun i j => '(lat, lon) <- out_loc og i j ;; dloc E G ig d f lat lon)).
Proof.
  intros R Hd. pose proof (is_grid_pos _ _ _ _ _ _ _ HO) as [HY HX]. unfold downscaling_gg2. rewrite (compat_grid2_ok _ _ _ _ _ _ _ _ HI R). cbn [bind negb].
  destruct d; [unfold nearest_gg2|unfold bilinear_gg2|congruence]; rewrite (compat_grid2_ok _ _ _ _ _ _ _ _ HI R); cbn [bind negb];
    rewrite (out_shape_ok _ _ _ _ _ _ _ HO); cbn [bind]; rewrite (is_empty_false _ _ _ _ _ _ _ HI); cbn [bind]; rewrite for2_init_tab by lia; reflexivity.
Qed.
Lemma down_gg2_inv f o : rect Y X f -> downscaling_gg2 E G ig og f d = Ok o -> d <> OtherDownscaler /\ rect Y' X' o /\
  forall i j, 0 <= i < Y' -> 0 <= j < X' -> exists lat lon v, out_loc og i j = Ok (lat, lon) /\ dloc E G ig d f lat lon = Ok v /\ get2 o i j = Ok v.
Proof.
  intros R H. assert (Hd : d <> OtherDownscaler).
  { intros ->. unfold downscaling_gg2 in H. rewrite (compat_grid2_ok _ _ _ _ _ _ _ _ HI R) in H. discriminate. }
  split; [exact Hd|]. rewrite down_gg2_tab in H by assumption. apply omp_Ok in H. pose proof (is_grid_pos _ _ _ _ _ _ _ HO) as [HY HX].
  apply tab2_inv in H as [HR K]; [|lia|lia]. split; [exact HR|]. intros i j Hi Hj. destruct (K i j Hi Hj) as (v & Hv & Hf).
  apply bind_Ok in Hf as ([lat lon] & Hl & Hf). eauto 8.
Qed.
Lemma stack_gg fs outs : fs <> [] -> Forall (rect Y X) fs -> Forall2 (fun f o => downscaling_gg2 E G ig og f d = Ok o) fs outs ->
  downscaling_gg3 E G ig og fs d = Ok outs.
Proof.
  intros NE R H. pose proof (is_grid_pos _ _ _ _ _ _ _ HO) as [HY HX]. pose proof (Forall2_len _ _ _ H) as HL. pose proof (zlen_nonneg fs) as Hn.
  assert (INV : forall k f, znth fs k = Ok f -> exists o, znth outs k = Ok o /\ rect Y' X' o /\ d <> OtherDownscaler /\
     forall i j, 0 <= i < Y' -> 0 <= j < X' -> exists lat lon v, out_loc og i j = Ok (lat, lon) /\ dloc E G ig d f lat lon = Ok v /\ get2 o i j = Ok v).
  { intros k f Hk. destruct (Forall2_get _ _ _ _ _ H Hk) as (o & Ho & Hd). exists o. split; [exact Ho|].
    rewrite Forall_forall in R. destruct (down_gg2_inv f o (R _ (znth_In _ _ _ Hk)) Hd) as (A & B & C). auto. }
  assert (PO : 0 < zlen fs) by (destruct fs; [congruence|rewrite zlen_cons; pose proof (zlen_nonneg fs); lia]).
  destruct (znth_some fs 0) as [f0 Hf0]; [lia|]. destruct (INV 0 f0 Hf0) as (o0 & _ & _ & Hd & L0).
  unfold downscaling_gg3. rewrite (compat_grid3_ok _ _ _ _ _ _ _ _ HI R). cbn [bind negb].
  assert (FIN : forall g : Z -> res vec2, (forall k f o, znth fs k = Ok f -> znth outs k = Ok o -> g k = Ok o) -> mapM g (zrange 0 (zlen fs)) = Ok outs).
  { intros g Hg. destruct (mapM_total g (fun k o => znth outs k = Ok o) (zrange 0 (zlen fs))) as (r & Hr & Lr & K).
    - intros k Hk. apply in_zrange in Hk. destruct (znth_some fs k) as [f Hf]; [lia|]. destruct (znth_some outs k) as [o Ho]; [lia|]. eauto.
    - rewrite Hr. f_equal. rewrite zlen_zrange in Lr. apply znth_ext; [lia|]. intros k Hk. destruct (K k k) as (v & Hv & _ & Hw); [rewrite znth_zrange by lia; f_equal; lia|]. congruence. }
  destruct d; [| |congruence].
  - unfold nearest_gg3. rewrite (compat_grid3_ok _ _ _ _ _ _ _ _ HI R). cbn [bind negb].
    rewrite (out_shape_ok _ _ _ _ _ _ _ HO). cbn [bind]. rewrite (is_empty_false _ _ _ _ _ _ _ HI). cbn [bind]. rewrite for2_init_tab by lia.
    destruct (tab2_total Y' X' (fun i j => '(lat, lon) <- out_loc og i j ;; lookup_grid G ig lat lon)
      (fun i j c => exists lat lon, out_loc og i j = Ok (lat, lon) /\ lookup_grid G ig lat lon = Ok c)) as (IJ & HIJ & RIJ & KIJ); [lia|lia| |].
    { intros i j Hi Hj. destruct (L0 i j Hi Hj) as (lat & lon & v & Hl & Hv & _). rewrite Hl. cbn [bind]. cbn [dloc] in Hv. apply bind_Ok in Hv as (c & Hc & _). rewrite Hc. eauto 6. }
    rewrite HIJ. cbn [omp bind]. apply FIN. intros k f o Hf Ho. destruct (INV k f Hf) as (o' & Ho' & Ro & _ & Lk). assert (o' = o) by congruence. subst o'.
    rewrite Hf. cbn [bind].
    destruct (tab2_total Y' X' (fun i j => k0 <- get2 IJ i j ;; at_grid f k0) (fun i j v => get2 o i j = Ok v)) as (r & Hr & Rr & Kr); [lia|lia| |].
    + intros i j Hi Hj. destruct (Lk i j Hi Hj) as (lat & lon & v & Hl & Hv & Hg). destruct (KIJ i j Hi Hj) as (c & Hc & _ & lat' & lon' & Hl' & Hc').
      rewrite Hl in Hl'. injection Hl' as <- <-. cbn [dloc] in Hv. rewrite Hc' in Hv. cbn [bind] in Hv. rewrite Hc. cbn [bind]. eauto.
    + rewrite Hr. f_equal. apply (rect_ext Y' X'); auto. intros i j Hi Hj. destruct (Kr i j Hi Hj) as (v & Hv & _ & Hw). congruence.
  - unfold bilinear_gg3. rewrite (compat_grid3_ok _ _ _ _ _ _ _ _ HI R). cbn [bind negb].
    rewrite (out_shape_ok _ _ _ _ _ _ _ HO). cbn [bind]. rewrite (is_empty_false _ _ _ _ _ _ _ HI). cbn [bind]. rewrite for2_init_tab by lia.
    destruct (tab2_total Y' X' (fun i j => '(lat, lon) <- out_loc og i j ;; bilinear_loc3 E G ig fs lat lon)
      (fun i j tmp => forall k o, znth outs k = Ok o -> znth tmp k = get2 o i j)) as (T & HT & RT & KT); [lia|lia| |].
    { intros i j Hi Hj. destruct (L0 i j Hi Hj) as (lat & lon & v & Hl & Hv & _). rewrite Hl. cbn [bind]. unfold bilinear_loc3.
      cbn [dloc] in Hv. unfold bilinear_loc in Hv. apply bind_Ok in Hv as (b & Hb & _). rewrite Hb. cbn [bind].
      destruct (mapM_total (fun vt => calc_box E G ig vt b lat lon) (fun vt r => True) fs) as (r & Hr & Lr & K).
      - intros f Hin. apply In_znth in Hin as [k Hk]. destruct (INV k f Hk) as (o & _ & _ & _ & Lk). destruct (Lk i j Hi Hj) as (lat' & lon' & v' & Hl' & Hv' & _).
        rewrite Hl in Hl'. injection Hl' as <- <-. cbn [dloc] in Hv'. unfold bilinear_loc in Hv'. rewrite Hb in Hv'. cbn [bind] in Hv'. eauto.
      - exists r. split; [exact Hr|]. intros k o Ho. pose proof (znth_range _ _ _ Ho). destruct (znth_some fs k) as [f Hf]; [lia|].
        destruct (K k f Hf) as (v' & Hv' & Hc & _). destruct (INV k f Hf) as (o' & Ho' & _ & _ & Lk). assert (o' = o) by congruence. subst o'.
        destruct (Lk i j Hi Hj) as (lat' & lon' & v2 & Hl' & Hv2 & Hg). rewrite Hl in Hl'. injection Hl' as <- <-.
        cbn [dloc] in Hv2. unfold bilinear_loc in Hv2. rewrite Hb in Hv2. cbn [bind] in Hv2. congruence. }
    rewrite HT. cbn [omp bind]. apply FIN. intros k f o Hf Ho. destruct (INV k f Hf) as (o' & Ho' & Ro & _ & _). assert (o' = o) by congruence. subst o'.
    destruct (tab2_total Y' X' (fun i j => temp <- get2 T i j ;; znth temp k) (fun i j v => get2 o i j = Ok v)) as (r & Hr & Rr & Kr); [lia|lia| |].
    + intros i j Hi Hj. destruct (KT i j Hi Hj) as (tmp & Ht & _ & K). rewrite Ht. cbn [bind]. rewrite (K _ _ Ho). destruct (rect_get2 _ _ _ _ _ Ro Hi Hj) as [v Hv]. eauto.
    + rewrite Hr. f_equal. apply (rect_ext Y' X'); auto. intros i j Hi Hj. destruct (Kr i j Hi Hj) as (v & Hv & _ & Hw). congruence.
Qed.
End ToGrid.

Section ToPoints.
Variables (E : ext) (G : geo) (t t' : ctype) (Y X : Z) (lats lons : list (list Qc)) (las' los' : list Qc) (ig : grid) (op : points) (d : downscaler).
Hypothesis HI : is_grid G t Y X lats lons ig.
Hypothesis HO : is_points G t' las' los' op.
Let n := zlen las'.
Lemma op_size : points_size op = n.
Proof. destruct (points_inv _ _ _ _ _ HO) as (_ & E1 & _). unfold points_size. rewrite E1. apply zlen_map. Qed.
Lemma n_pos : 0 <= n. Proof. apply zlen_nonneg. Qed.
Lemma down_gp2_inv f o : rect Y X f -> downscaling_gp2 E G ig op f d = Ok o -> d <> OtherDownscaler /\ zlen o = n /\
  forall i, 0 <= i < n -> exists lat lon v, pt_loc op i = Ok (lat, lon) /\ dloc E G ig d f lat lon = Ok v /\ znth o i = Ok v.
Proof.
  intros R H. assert (Hd : d <> OtherDownscaler).
  { intros ->. unfold downscaling_gp2 in H. rewrite (compat_grid2_ok _ _ _ _ _ _ _ _ HI R) in H. discriminate. }
  split; [exact Hd|].
  assert (H' : mapM (fun i => '(lat, lon) <- pt_loc op i ;; dloc E G ig d f lat lon) (zrange 0 n) = Ok o).
  { unfold downscaling_gp2 in H. rewrite (compat_grid2_ok _ _ _ _ _ _ _ _ HI R) in H. cbn [bind negb] in H. pose proof n_pos.
    destruct d; [unfold nearest_gp2 in H|unfold bilinear_gp2 in H|congruence]; rewrite (compat_grid2_ok _ _ _ _ _ _ _ _ HI R) in H; cbn [bind negb] in H;
    rewrite (is_empty_false _ _ _ _ _ _ _ HI), op_size in H; cbn [bind] in H; rewrite for1_init_tab in H by lia; apply omp_Ok in H; exact H. }
  apply mapM_inv in H' as [L K]. rewrite zlen_zrange in L. pose proof n_pos. split; [lia|]. intros i Hi. destruct (K i i) as (v & Hv & Hf); [rewrite znth_zrange by lia; f_equal; lia|].
  apply bind_Ok in Hf as ([lat lon] & Hl & Hf). eauto 8.
Qed.
Lemma stack_gp fs outs : fs <> [] -> Forall (rect Y X) fs -> Forall2 (fun f o => downscaling_gp2 E G ig op f d = Ok o) fs outs ->
  downscaling_gp3 E G ig op fs d = Ok outs.
Proof.
  intros NE R H. pose proof n_pos as HN. pose proof (Forall2_len _ _ _ H) as HL. pose proof (zlen_nonneg fs) as Hn.
  assert (INV : forall k f, znth fs k = Ok f -> exists o, znth outs k = Ok o /\ zlen o = n /\ d <> OtherDownscaler /\
     forall i, 0 <= i < n -> exists lat lon v, pt_loc op i = Ok (lat, lon) /\ dloc E G ig d f lat lon = Ok v /\ znth o i = Ok v).
  { intros k f Hk. destruct (Forall2_get _ _ _ _ _ H Hk) as (o & Ho & Hd). exists o. split; [exact Ho|].
    rewrite Forall_forall in R. destruct (down_gp2_inv f o (R _ (znth_In _ _ _ Hk)) Hd) as (A & B & C). auto. }
  assert (PO : 0 < zlen fs) by (destruct fs; [congruence|rewrite zlen_cons; pose proof (zlen_nonneg fs); lia]).
  destruct (znth_some fs 0) as [f0 Hf0]; [lia|]. destruct (INV 0 f0 Hf0) as (o0 & _ & _ & Hd & L0).
  unfold downscaling_gp3. rewrite (compat_grid3_ok _ _ _ _ _ _ _ _ HI R). cbn [bind negb].
  assert (ROW : forall (g : Z -> res val) o, zlen o = n -> (forall i, 0 <= i < n -> exists v, g i = Ok v /\ znth o i = Ok v) -> mapM g (zrange 0 n) = Ok o).
  { intros g o Lo Hg. destruct (mapM_total g (fun k v => znth o k = Ok v) (zrange 0 n)) as (r & Hr & Lr & K).
    - intros k Hk. apply in_zrange in Hk. apply Hg. lia.
    - rewrite Hr. f_equal. rewrite zlen_zrange in Lr. apply znth_ext; [lia|]. intros k Hk. destruct (K k k) as (v & Hv & _ & Hw); [rewrite znth_zrange by lia; f_equal; lia|]. congruence. }
  assert (FIN : forall g : Z -> res vec, (forall k f o, znth fs k = Ok f -> znth outs k = Ok o -> g k = Ok o) -> mapM g (zrange 0 (zlen fs)) = Ok outs).
  { intros g Hg. destruct (mapM_total g (fun k o => znth outs k = Ok o) (zrange 0 (zlen fs))) as (r & Hr & Lr & K).
    - intros k Hk. apply in_zrange in Hk. destruct (znth_some fs k) as [f Hf]; [lia|]. destruct (znth_some outs k) as [o Ho]; [lia|]. eauto.
    - rewrite Hr. f_equal. rewrite zlen_zrange in Lr. apply znth_ext; [lia|]. intros k Hk. destruct (K k k) as (v & Hv & _ & Hw); [rewrite znth_zrange by lia; f_equal; lia|]. congruence. }
  destruct d; [| |congruence].
  - unfold nearest_gp3. rewrite (compat_grid3_ok _ _ _ _ _ _ _ _ HI R). cbn [bind negb].
    rewrite (is_empty_false _ _ _ _ _ _ _ HI), op_size. cbn [bind]. rewrite for1_init_tab by lia.
    destruct (mapM_total (fun i => '(lat, lon) <- pt_loc op i ;; lookup_grid G ig lat lon)
      (fun i c => exists lat lon, pt_loc op i = Ok (lat, lon) /\ lookup_grid G ig lat lon = Ok c) (zrange 0 n)) as (IJ & HIJ & LIJ & KIJ).
    { intros i Hi. apply in_zrange in Hi. destruct (L0 i Hi) as (lat & lon & v & Hl & Hv & _). rewrite Hl. cbn [bind]. cbn [dloc] in Hv. apply bind_Ok in Hv as (c & Hc & _). rewrite Hc. eauto 6. }
    rewrite HIJ. cbn [omp bind]. apply FIN. intros k f o Hf Ho. destruct (INV k f Hf) as (o' & Ho' & Lo & _ & Lk). assert (o' = o) by congruence. subst o'.
    rewrite Hf. cbn [bind]. apply ROW; [exact Lo|]. intros i Hi. destruct (Lk i Hi) as (lat & lon & v & Hl & Hv & Hg).
    destruct (KIJ i i) as (c & Hc & _ & lat' & lon' & Hl' & Hc'); [rewrite znth_zrange by lia; f_equal; lia|].
    rewrite Hl in Hl'. injection Hl' as <- <-. cbn [dloc] in Hv. rewrite Hc' in Hv. cbn [bind] in Hv. rewrite Hc. cbn [bind]. eauto.
  - unfold bilinear_gp3. rewrite (compat_grid3_ok _ _ _ _ _ _ _ _ HI R). cbn [bind negb].
    rewrite (is_empty_false _ _ _ _ _ _ _ HI), op_size. cbn [bind]. rewrite for1_init_tab by lia.
    destruct (mapM_total (fun i => '(lat, lon) <- pt_loc op i ;; bilinear_loc3 E G ig fs lat lon)
      (fun i tmp => forall k o, znth outs k = Ok o -> znth tmp k = znth o i) (zrange 0 n)) as (T & HT & LT & KT).
    { intros i Hi. apply in_zrange in Hi. destruct (L0 i Hi) as (lat & lon & v & Hl & Hv & _). rewrite Hl. cbn [bind]. unfold bilinear_loc3.
      cbn [dloc] in Hv. unfold bilinear_loc in Hv. apply bind_Ok in Hv as (b & Hb & _). rewrite Hb. cbn [bind].
      destruct (mapM_total (fun vt => calc_box E G ig vt b lat lon) (fun vt r => True) fs) as (r & Hr & Lr & K).
      - intros f Hin. apply In_znth in Hin as [k Hk]. destruct (INV k f Hk) as (o & _ & _ & _ & Lk). destruct (Lk i Hi) as (lat' & lon' & v' & Hl' & Hv' & _).
        rewrite Hl in Hl'. injection Hl' as <- <-. cbn [dloc] in Hv'. unfold bilinear_loc in Hv'. rewrite Hb in Hv'. cbn [bind] in Hv'. eauto.
      - exists r. split; [exact Hr|]. intros k o Ho. pose proof (znth_range _ _ _ Ho). destruct (znth_some fs k) as [f Hf]; [lia|].
        destruct (K k f Hf) as (v' & Hv' & Hc & _). destruct (INV k f Hf) as (o' & Ho' & _ & _ & Lk). assert (o' = o) by congruence. subst o'.
        destruct (Lk i Hi) as (lat' & lon' & v2 & Hl' & Hv2 & Hg). rewrite Hl in Hl'. injection Hl' as <- <-.
        cbn [dloc] in Hv2. unfold bilinear_loc in Hv2. rewrite Hb in Hv2. cbn [bind] in Hv2. congruence. }
    rewrite HT. cbn [omp bind]. apply FIN. intros k f o Hf Ho. destruct (INV k f Hf) as (o' & Ho' & Lo & _ & _). assert (o' = o) by congruence. subst o'.
    apply ROW; [exact Lo|]. intros i Hi. destruct (KT i i) as (tmp & Ht & _ & K); [rewrite znth_zrange by lia; f_equal; lia|]. rewrite Ht. cbn [bind]. rewrite (K _ _ Ho).
    destruct (znth_some o i) as [v Hv]; [lia|]. eauto.
Qed.
End ToPoints.

(** ** values *)
Lemma miss_add a b : missing a \/ missing b -> missing (vadd a b).
Proof. unfold missing. destruct a, b; cbn; intuition congruence. Qed.
Lemma miss_inf b : missing (vinf b). Proof. destruct b; reflexivity. Qed.
Lemma miss_mul a b : missing a \/ missing b -> missing (vmul a b).
Proof.
  destruct a, b; cbn; try reflexivity; try (unfold missing; cbn; intuition congruence);
    intros _; match goal with |- missing (if ?c then _ else _) => destruct c end; (reflexivity || apply miss_inf).
Qed.
Lemma miss_neg a : missing a -> missing (vneg a). Proof. unfold missing. destruct a; cbn; congruence. Qed.
Lemma miss_sub a b : missing a \/ missing b -> missing (vsub a b).
Proof. intros [H|H]; apply miss_add; [left; exact H|right; apply miss_neg, H]. Qed.
Lemma simple_ok dv oe ie g : simple_value dv oe ie g (elev_corrected dv oe ie g).
Proof.
  assert (M1 : missing dv -> missing (elev_corrected dv oe ie g)) by (intros; apply miss_add; auto).
  assert (M2 : missing oe -> missing (elev_corrected dv oe ie g)) by (intros; apply miss_add; right; apply miss_mul; left; apply miss_sub; auto).
  assert (M3 : missing ie -> missing (elev_corrected dv oe ie g)) by (intros; apply miss_add; right; apply miss_mul; left; apply miss_sub; auto).
  assert (M4 : missing g -> missing (elev_corrected dv oe ie g)) by (intros; apply miss_add; right; apply miss_mul; auto).
  unfold simple_value. destruct dv; try (apply M1; reflexivity). destruct oe; try (apply M2; reflexivity). destruct ie; try (apply M3; reflexivity).
  destruct g; try (apply M4; reflexivity). cbn. f_equal. ring.
Qed.
Lemma corr_some n o i g : 0 < n -> exists c, correction n (Ok o) (Ok i) (Ok g) = Ok c /\ correction_of (Some g) o i c.
Proof.
  intros H. unfold correction. rewrite (proj2 (Z.ltb_lt 0 n) H). cbn [bind]. destruct (is_valid o && is_valid i)%bool eqn:V.
  - apply andb_true_iff in V as [V1 V2]. destruct o; try discriminate. destruct i; try discriminate. eexists. split; [reflexivity|].
    cbn [correction_of]. destruct g; try (apply miss_mul; left; reflexivity). cbn. reflexivity.
  - eexists. split; [reflexivity|]. unfold fz. rewrite qz_0. destruct g, o, i; try discriminate; reflexivity.
Qed.
Lemma corr_none x y z : correction 0 x y z = Ok (Fin 0%Qc).
Proof. reflexivity. Qed.
Lemma full_ok dv ge oe ie gl ol il ce cl : correction_of ge oe ie ce -> correction_of gl ol il cl ->
  full_value dv ge oe ie gl ol il (vadd dv (vadd cl ce)).
Proof.
  intros H1 H2. exists ce, cl. split; [exact H1|]. split; [exact H2|].
  assert (M1 : missing dv -> missing (vadd dv (vadd cl ce))) by (intros; apply miss_add; auto).
  assert (M2 : missing ce -> missing (vadd dv (vadd cl ce))) by (intros; apply miss_add; right; apply miss_add; auto).
  assert (M3 : missing cl -> missing (vadd dv (vadd cl ce))) by (intros; apply miss_add; right; apply miss_add; auto).
  destruct dv; try (apply M1; reflexivity). destruct ce; try (apply M2; reflexivity). destruct cl; try (apply M3; reflexivity). cbn. f_equal. ring.
Qed.
Definition fstp {A B} (dA : A) (p : option (A * B)) : A := match p with Some (a, _) => a | None => dA end.
Definition sndp {A B} (dB : B) (p : option (A * B)) : B := match p with Some (_, b) => b | None => dB end.

Lemma slice_n_mid {A} (p m q : list A) : slice_n (zlen p) (zlen m) (p ++ m ++ q) = Ok m.
Proof.
  unfold slice_n. pose proof (zlen_nonneg m). pose proof (zlen_nonneg p).
  assert (G : forall k, 0 <= k < zlen m -> znth (p ++ m ++ q) (zlen p + k) = znth m k).
  { intros k Hk. rewrite znth_app_r by lia. replace (zlen p + k - zlen p) with k by lia. apply znth_app_l. lia. }
  destruct (mapM_total (fun s => znth (p ++ m ++ q) (zlen p + s)) (fun _ _ => True) (zrange 0 (zlen m))) as (r & Hr & L & K).
  - intros k Hk. apply in_zrange in Hk. rewrite G by lia. destruct (znth_some m k) as [a Ha]; [lia|]. eauto.
  - rewrite Hr. f_equal. rewrite zlen_zrange in L. apply znth_ext; [lia|]. intros k Hk. destruct (K k k) as (v & Hv & Hw & _); [rewrite znth_zrange by lia; f_equal; lia|].
    rewrite G in Hw by lia. congruence.
Qed.
Lemma take_n_all {A} (l : list A) n : zlen l = n -> take_n n l = Ok l.
Proof.
  intros <-. pose proof (slice_n_mid [] l []) as H. cbn [app] in H. rewrite app_nil_r in H. unfold slice_n in H. unfold take_n.
  erewrite mapM_ext; [exact H|]. intros k _. reflexivity.
Qed.
(** ** to a grid *)
Section GG.
Variables (E : ext) (G : geo) (t t' : ctype) (Y X Y' X' : Z) (lats lons lats' lons' : list (list Qc)) (ig og : grid) (d : downscaler).
Hypothesis HI : is_grid G t Y X lats lons ig.
Hypothesis HO : is_grid G t' Y' X' lats' lons' og.
Let down f := downscaling_gg2 E G ig og f d.
Let ED : rect Y X (g_elevs ig). Proof. apply (grid_inv _ _ _ _ _ _ _ HI). Qed.
Let LD : rect Y X (g_lafs ig). Proof. apply (grid_inv _ _ _ _ _ _ _ HI). Qed.
Let EO : rect Y' X' (g_elevs og). Proof. apply (grid_inv _ _ _ _ _ _ _ HO). Qed.
Let LO : rect Y' X' (g_lafs og). Proof. apply (grid_inv _ _ _ _ _ _ _ HO). Qed.
Let PY : 0 < Y' /\ 0 < X'. Proof. apply (is_grid_pos _ _ _ _ _ _ _ HO). Qed.
Let down_rect f o : rect Y X f -> down f = Ok o -> rect Y' X' o.
Proof. intros R H. apply (down_gg2_inv E G t t' Y X Y' X' lats lons lats' lons' ig og d HI HO f o R H). Qed.
Lemma simple_loop (de dv : vec2) g (rd : Z -> Z -> res val) : rect Y' X' de -> rect Y' X' dv -> (forall i j, rd i j = get2 dv i j) ->
  exists out, for2 Y' X' (init2 Y' X' MV) (fun i j => oe <- get2 (g_elevs og) i j ;; de <- get2 de i j ;; dv <- rd i j ;; Ok (elev_corrected dv oe de g)) = Ok out /\
  simple_cells Y' X' (g_elevs og) de dv g out.
Proof.
  intros R1 R2 Hrd. destruct PY. rewrite for2_init_tab by lia.
  destruct (tab2_total Y' X' (fun i j => oe <- get2 (g_elevs og) i j ;; de <- get2 de i j ;; dv <- rd i j ;; Ok (elev_corrected dv oe de g))
    (fun i j r => exists v oe ie, get2 dv i j = Ok v /\ get2 (g_elevs og) i j = Ok oe /\ get2 de i j = Ok ie /\ simple_value v oe ie g r)) as (out & Ho & Ro & K); [lia|lia| |].
  - intros i j Hi Hj. rewrite Hrd. destruct (rect_get2 _ _ _ _ _ EO Hi Hj) as [oe Hoe]. destruct (rect_get2 _ _ _ _ _ R1 Hi Hj) as [ie Hie]. destruct (rect_get2 _ _ _ _ _ R2 Hi Hj) as [v Hv].
    rewrite Hoe, Hie, Hv. cbn [bind]. eexists. split; [reflexivity|]. exists v, oe, ie. split; [reflexivity|]. split; [reflexivity|]. split; [reflexivity|]. apply simple_ok.
  - exists out. split; [exact Ho|]. split; [exact Ro|]. intros i j Hi Hj. destruct (K i j Hi Hj) as (r & Hr & _ & v & oe & ie & A & B & C & D). exists v, oe, ie, r. auto.
Qed.
Lemma simple_gg2_ok v dv de g : rect Y X v -> down v = Ok dv -> down (g_elevs ig) = Ok de ->
  exists out, simple_gradient_gg2 E G ig og v g d = Ok out /\ simple_cells Y' X' (g_elevs og) de dv g out.
Proof.
  intros R Hv He. unfold simple_gradient_gg2. rewrite (compat_grid2_ok _ _ _ _ _ _ _ _ HI R). cbn [bind negb]. rewrite (grid_size_ok _ _ _ _ _ _ _ HO). cbn [bind].
  fold (down v) (down (g_elevs ig)). rewrite Hv, He. cbn [bind]. apply simple_loop; eauto.
Qed.
Lemma simple_gg3_ok v dv de g : v <> [] -> Forall (rect Y X) v -> Forall2 (fun f o => down f = Ok o) v dv -> down (g_elevs ig) = Ok de ->
  exists out, simple_gradient_gg3 E G ig og v g d = Ok out /\ Forall2 (fun dvt ot => simple_cells Y' X' (g_elevs og) de dvt g ot) dv out.
Proof.
  intros NE R Hv He. unfold simple_gradient_gg3. rewrite (compat_grid3_ok _ _ _ _ _ _ _ _ HI R). cbn [bind negb]. rewrite (grid_size_ok _ _ _ _ _ _ _ HO). cbn [bind].
  rewrite (stack_gg E G t t' Y X Y' X' lats lons lats' lons' ig og d HI HO v dv NE R Hv). cbn [bind]. fold (down (g_elevs ig)). rewrite He. cbn [bind].
  pose proof (Forall2_len _ _ _ Hv) as HL. pose proof (zlen_nonneg v). rewrite <- HL.
  destruct (mapM_total (fun s => for2 Y' X' (init2 Y' X' MV) (fun i j => oe <- get2 (g_elevs og) i j ;; de <- get2 de i j ;; dv <- get3 dv s i j ;; Ok (elev_corrected dv oe de g)))
    (fun s ot => exists dvt, znth dv s = Ok dvt /\ simple_cells Y' X' (g_elevs og) de dvt g ot) (zrange 0 (zlen dv))) as (out & Ho & Lo & K).
  - intros s Hs. apply in_zrange in Hs. destruct (znth_some dv s) as [dvt Hd]; [lia|]. destruct (znth_some v s) as [vt Hvt]; [lia|].
    destruct (Forall2_get _ _ _ _ _ Hv Hvt) as (o & Ho & Hdo). assert (o = dvt) by congruence. subst o. rewrite Forall_forall in R. pose proof (R _ (znth_In _ _ _ Hvt)) as Rt.
    destruct (simple_loop de dvt g (fun i j => get3 dv s i j)) as (out & Hout & Hc); [eauto|eauto| |eauto].
    intros i j. unfold get3, get2. rewrite Hd. reflexivity.
  - exists out. rewrite Ho. split; [reflexivity|]. rewrite zlen_zrange in Lo. apply Forall2_znth; [lia|]. intros k a Hk. pose proof (znth_range _ _ _ Hk).
    destruct (K k k) as (ot & Hot & _ & dvt & Hd & Hc); [rewrite znth_zrange by lia; f_equal; lia|]. exists ot. split; [exact Hot|]. congruence.
Qed.
Definition rectp (p : option (vec2 * vec2)) : Prop := forall a b, p = Some (a, b) -> rect Y' X' a /\ rect Y' X' b.
Lemma corr_gg p own ne i j : rectp p -> rect Y' X' own -> (p = None -> ne = 0) -> (p <> None -> 0 < ne) -> 0 <= i < Y' -> 0 <= j < X' ->
  exists o g c ie, get2 own i j = Ok o /\ plain_at (fun a => get2 a i j) p g ie /\ correction_of g o ie c /\
    forall rg, (forall a b, p = Some (a, b) -> rg = get2 a i j) -> correction ne (get2 own i j) (get2 (sndp [] p) i j) rg = Ok c.
Proof.
  intros RP RO N1 N2 Hi Hj. destruct (rect_get2 _ _ _ _ _ RO Hi Hj) as [o Ho]. rewrite Ho. destruct p as [[a b]|].
  - destruct (RP a b eq_refl) as [Ra Rb]. destruct (rect_get2 _ _ _ _ _ Ra Hi Hj) as [g Hg]. destruct (rect_get2 _ _ _ _ _ Rb Hi Hj) as [ie Hie].
    destruct (corr_some ne o ie g) as (c & Hc & HC); [apply N2; discriminate|]. exists o, (Some g), c, ie. split; [reflexivity|]. split; [cbn; eauto|]. split; [exact HC|].
    intros rg Hrg. rewrite (Hrg a b eq_refl), Hg. cbn [sndp]. rewrite Hie. exact Hc.
  - exists o, None, (Fin 0%Qc), NaN. split; [reflexivity|]. split; [reflexivity|]. split; [reflexivity|]. intros rg _. rewrite N1 by reflexivity. apply corr_none.
Qed.
Lemma full_loop pe pl dv ne nl rl re : rect Y' X' dv -> rectp pe -> rectp pl -> (pe = None -> ne = 0) -> (pe <> None -> 0 < ne) -> (pl = None -> nl = 0) -> (pl <> None -> 0 < nl) ->
  (forall a b i j, pe = Some (a, b) -> re i j = get2 a i j) -> (forall a b i j, pl = Some (a, b) -> rl i j = get2 a i j) ->
  exists out, for2 Y' X' dv (fun y x =>
    lc <- correction nl (get2 (g_lafs og) y x) (get2 (sndp [] pl) y x) (rl y x) ;;
    ec <- correction ne (get2 (g_elevs og) y x) (get2 (sndp [] pe) y x) (re y x) ;;
    o <- get2 dv y x ;; Ok (vadd o (vadd lc ec))) = Ok out /\ full_cells Y' X' (g_elevs og) (g_lafs og) pe pl dv out.
Proof.
  intros RV RE RL N1 N2 N3 N4 Hre Hrl. destruct PY. rewrite for2_tab by exact RV.
  destruct (tab2_total Y' X' (fun y x =>
    lc <- correction nl (get2 (g_lafs og) y x) (get2 (sndp [] pl) y x) (rl y x) ;;
    ec <- correction ne (get2 (g_elevs og) y x) (get2 (sndp [] pe) y x) (re y x) ;;
    o <- get2 dv y x ;; Ok (vadd o (vadd lc ec)))
    (fun i j r => exists v ge oe ie gl ol il,
      get2 dv i j = Ok v /\ get2 (g_elevs og) i j = Ok oe /\ plain_at (fun a => get2 a i j) pe ge ie /\
      get2 (g_lafs og) i j = Ok ol /\ plain_at (fun a => get2 a i j) pl gl il /\ full_value v ge oe ie gl ol il r)) as (out & Ho & Ro & K); [lia|lia| |].
  - intros i j Hi Hj. destruct (corr_gg pe (g_elevs og) ne i j RE EO N1 N2 Hi Hj) as (oe & ge & ce & ie & A1 & A2 & A3 & A4).
    destruct (corr_gg pl (g_lafs og) nl i j RL LO N3 N4 Hi Hj) as (ol & gl & cl & il & B1 & B2 & B3 & B4). destruct (rect_get2 _ _ _ _ _ RV Hi Hj) as [v Hv].
    rewrite A4 by eauto. rewrite B4 by eauto. cbn [bind]. rewrite Hv. cbn [bind]. eexists. split; [reflexivity|].
    exists v, ge, oe, ie, gl, ol, il. repeat (split; [assumption || reflexivity|]). apply full_ok; assumption.
  - exists out. split; [exact Ho|]. split; [exact Ro|]. intros i j Hi Hj. destruct (K i j Hi Hj) as (r & Hr & _ & v & ge & oe & ie & gl & ol & il & A & B & C & D & F & H').
    exists v, ge, oe, ie, gl, ol, il, r. auto 8.
Qed.
Lemma same_size_ok f : rect Y X f -> same_size ig f = Ok true.
Proof.
  intros [R1 R2]. unfold same_size. rewrite (grid_size_ok _ _ _ _ _ _ _ HI). cbn [bind]. rewrite R1, Z.eqb_refl. cbn [negb].
  destruct (is_grid_pos _ _ _ _ _ _ _ HI). destruct (znth_some f 0) as [r Hr]; [lia|]. rewrite Hr. cbn [bind]. rewrite (R2 r), Z.eqb_refl by (eapply znth_In; eauto). reflexivity.
Qed.
Lemma same_size_opt_ok f : f = [] \/ rect Y X f -> same_size_opt ig f = Ok true.
Proof. unfold same_size_opt. intros [->|R]; [reflexivity|]. destruct (zlen f =? 0); [reflexivity|]. apply same_size_ok, R. Qed.
Lemma zlen_neq0 {A} (l : list A) : l <> [] -> (zlen l =? 0) = false.
Proof. intros H. destruct l; [congruence|]. rewrite zlen_cons. pose proof (zlen_nonneg l). lia. Qed.
Lemma full_gg2_ok v eg lg dv pe pl : rect Y X v -> (eg = [] \/ rect Y X eg) -> (lg = [] \/ rect Y X lg) -> down v = Ok dv ->
  plain down eg (g_elevs ig) pe -> plain down lg (g_lafs ig) pl ->
  exists out, full_gradient_gg2 E G ig og v eg lg d = Ok out /\ full_cells Y' X' (g_elevs og) (g_lafs og) pe pl dv out.
Proof.
  intros R Re Rl Hv Pe Pl. unfold full_gradient_gg2. rewrite (grid_size_ok _ _ _ _ _ _ _ HO). cbn [bind].
  rewrite (same_size_ok _ R), (same_size_opt_ok _ Re), (same_size_opt_ok _ Rl). cbn [bind negb].
  assert (LOOP : forall RE : rectp pe, forall RL : rectp pl, exists out, omp (for2 Y' X' dv (fun y x =>
    lc <- correction (zlen (fstp [] pl)) (get2 (g_lafs og) y x) (get2 (sndp [] pl) y x) (get2 (fstp [] pl) y x) ;;
    ec <- correction (zlen (fstp [] pe)) (get2 (g_elevs og) y x) (get2 (sndp [] pe) y x) (get2 (fstp [] pe) y x) ;;
    o <- get2 dv y x ;; Ok (vadd o (vadd lc ec)))) = Ok out /\ full_cells Y' X' (g_elevs og) (g_lafs og) pe pl dv out).
  { intros RE RL. destruct PY. destruct (full_loop pe pl dv (zlen (fstp [] pe)) (zlen (fstp [] pl)) (fun y x => get2 (fstp [] pl) y x) (fun y x => get2 (fstp [] pe) y x)) as (out & Ho & Hc); eauto.
    - intros ->. reflexivity.
    - destruct pe as [[a b]|]; [intros _|congruence]. destruct (RE a b eq_refl) as [[RA _] _]. cbn. lia.
    - intros ->. reflexivity.
    - destruct pl as [[a b]|]; [intros _|congruence]. destruct (RL a b eq_refl) as [[RA _] _]. cbn. lia.
    - intros a b i j ->. reflexivity.
    - intros a b i j ->. reflexivity.
    - exists out. rewrite Ho. auto. }
  destruct Pe as [[-> ->]|(ae & be & NE & Hae & Hbe & ->)]; destruct Pl as [[-> ->]|(al & bl & NL & Hal & Hbl & ->)].
  - change (zlen (@nil vec) =? 0) with true. cbn [negb app]. rewrite (stack_gg E G t t' Y X Y' X' lats lons lats' lons' ig og d HI HO [v] [dv]); [|discriminate|repeat constructor; apply R|repeat constructor; exact Hv].
    cbn. apply LOOP; intros a b K; discriminate.
  - destruct Rl as [->|Rl]; [congruence|]. rewrite (zlen_neq0 lg NL). change (zlen (@nil vec) =? 0) with true. cbn [negb app].
    rewrite (stack_gg E G t t' Y X Y' X' lats lons lats' lons' ig og d HI HO [v; lg; g_lafs ig] [dv; al; bl]); [|discriminate|repeat (constructor; try assumption)|repeat (constructor; try assumption)].
    cbn. apply LOOP; intros a b K; [discriminate|injection K as <- <-; eauto].
  - destruct Re as [->|Re]; [congruence|]. rewrite (zlen_neq0 eg NE). change (zlen (@nil vec) =? 0) with true. cbn [negb app].
    rewrite (stack_gg E G t t' Y X Y' X' lats lons lats' lons' ig og d HI HO [v; eg; g_elevs ig] [dv; ae; be]); [|discriminate|repeat (constructor; try assumption)|repeat (constructor; try assumption)].
    cbn. apply LOOP; intros a b K; [injection K as <- <-; eauto|discriminate].
  - destruct Re as [->|Re]; [congruence|]. destruct Rl as [->|Rl]; [congruence|]. rewrite (zlen_neq0 eg NE), (zlen_neq0 lg NL). cbn [negb app].
    rewrite (stack_gg E G t t' Y X Y' X' lats lons lats' lons' ig og d HI HO [v; eg; g_elevs ig; lg; g_lafs ig] [dv; ae; be; al; bl]); [|discriminate|repeat (constructor; try assumption)|repeat (constructor; try assumption)].
    cbn. apply LOOP; intros a b K; injection K as <- <-; eauto.
Qed.
Lemma full_gg3_ok v eg lg dv pe pl : v <> [] -> Forall (rect Y X) v -> Forall (rect Y X) eg -> Forall (rect Y X) lg -> Forall2 (fun f o => down f = Ok o) v dv ->
  plain3 down eg (g_elevs ig) (zlen v) pe -> plain3 down lg (g_lafs ig) (zlen v) pl ->
  exists out, full_gradient_gg3 E G ig og v eg lg d = Ok out /\ each_time (full_cells Y' X' (g_elevs og) (g_lafs og)) pe pl dv out.
Proof.
  intros NV R Re Rl Hv Pe Pl. pose proof (Forall2_len _ _ _ Hv) as LV. pose proof (zlen_nonneg v) as Hn.
  assert (PV : 0 < zlen v) by (destruct v; [congruence|rewrite zlen_cons; pose proof (zlen_nonneg v); lia]).
  assert (NZ : forall A (l : list A), zlen l = zlen v -> (zlen l =? 0) = false) by (intros; lia).
  unfold full_gradient_gg3. rewrite (grid_size_ok _ _ _ _ _ _ _ HO). cbn [bind]. rewrite take_n_all by reflexivity. cbn [bind].
  assert (LOOP : forall RE : (forall a b, pe = Some (a, b) -> zlen a = zlen v /\ Forall (rect Y' X') a /\ rect Y' X' b),
    forall RL : (forall a b, pl = Some (a, b) -> zlen a = zlen v /\ Forall (rect Y' X') a /\ rect Y' X' b),
    exists out, omp (mapM (fun s => out <- znth dv s ;; for2 Y' X' out (fun y x =>
    lc <- correction (zlen (fstp [] pl)) (get2 (g_lafs og) y x) (get2 (sndp [] pl) y x) (get3 (fstp [] pl) s y x) ;;
    ec <- correction (zlen (fstp [] pe)) (get2 (g_elevs og) y x) (get2 (sndp [] pe) y x) (get3 (fstp [] pe) s y x) ;;
    o <- get2 out y x ;; Ok (vadd o (vadd lc ec)))) (zrange 0 (zlen v))) = Ok out /\ each_time (full_cells Y' X' (g_elevs og) (g_lafs og)) pe pl dv out).
  { intros RE RL. 
    destruct (mapM_total (fun s => out <- znth dv s ;; for2 Y' X' out (fun y x =>
      lc <- correction (zlen (fstp [] pl)) (get2 (g_lafs og) y x) (get2 (sndp [] pl) y x) (get3 (fstp [] pl) s y x) ;;
      ec <- correction (zlen (fstp [] pe)) (get2 (g_elevs og) y x) (get2 (sndp [] pe) y x) (get3 (fstp [] pe) s y x) ;;
      o <- get2 out y x ;; Ok (vadd o (vadd lc ec))))
      (fun s o => exists f qe ql, znth dv s = Ok f /\ at_time pe s qe /\ at_time pl s ql /\ full_cells Y' X' (g_elevs og) (g_lafs og) qe ql f o) (zrange 0 (zlen v))) as (out & Ho & Lo & K).
    - intros s Hs. apply in_zrange in Hs. destruct (znth_some v s) as [vt Hvt]; [lia|]. destruct (Forall2_get _ _ _ _ _ Hv Hvt) as (dvt & Hd & Hdo). rewrite Hd. cbn [bind].
      rewrite Forall_forall in R. pose proof (down_rect _ _ (R _ (znth_In _ _ _ Hvt)) Hdo) as RD.
      assert (SEL : forall p : option (vec3 * vec2), (forall a b, p = Some (a, b) -> zlen a = zlen v /\ Forall (rect Y' X') a /\ rect Y' X' b) ->
        exists q, at_time p s q /\ rectp q /\ (q = None -> zlen (fstp [] p) = 0) /\ (q <> None -> 0 < zlen (fstp [] p)) /\ sndp [] p = sndp [] q /\
          (forall a b i j, q = Some (a, b) -> get3 (fstp [] p) s i j = get2 a i j)).
      { intros [[a b]|] Hp.
        - destruct (Hp a b eq_refl) as (L1 & R1 & R2). destruct (znth_some a s) as [f Hf]; [lia|]. exists (Some (f, b)). split; [cbn; eauto|]. split.
          + intros a' b' K. injection K as <- <-. rewrite Forall_forall in R1. split; [apply R1; eapply znth_In; eauto|exact R2].
          + split; [discriminate|]. split; [intros _; cbn; lia|]. split; [reflexivity|]. intros a' b' i j K. injection K as <- <-. cbn. unfold get3, get2. rewrite Hf. reflexivity.
        - exists None. split; [reflexivity|]. split; [intros ? ? K; discriminate|]. split; [reflexivity|]. split; [congruence|]. split; [reflexivity|]. intros ? ? ? ? K; discriminate. }
      destruct (SEL pe RE) as (qe & A1 & A2 & A3 & A4 & A5 & A6). destruct (SEL pl RL) as (ql & B1 & B2 & B3 & B4 & B5 & B6). rewrite A5, B5.
      destruct (full_loop qe ql dvt (zlen (fstp [] pe)) (zlen (fstp [] pl)) (fun y x => get3 (fstp [] pl) s y x) (fun y x => get3 (fstp [] pe) s y x)) as (o & Hoo & Hc); auto.
      exists o. split; [exact Hoo|]. exists dvt, qe, ql. auto.
    - exists out. rewrite Ho. split; [reflexivity|]. rewrite zlen_zrange in Lo. split; [lia|]. intros s f Hf. pose proof (znth_range _ _ _ Hf).
      destruct (K s s) as (o & Hoo & _ & f' & qe & ql & Q1 & Q2 & Q3 & Q4); [rewrite znth_zrange by lia; f_equal; lia|]. assert (f' = f) by congruence. subst f'. exists qe, ql, o. auto. }
  assert (RES : forall (g : vec3) a, Forall (rect Y X) g -> Forall2 (fun f o => down f = Ok o) g a -> Forall (rect Y' X') a).
  { intros g a Rg H. induction H as [|f o g a Hf _ IH]; [constructor|]. inversion Rg; subst. constructor; eauto. }
  destruct Pe as [[-> ->]|(ae & be & LE & Hae & Hbe & ->)]; destruct Pl as [[-> ->]|(al & bl & LL & Hal & Hbl & ->)].
  - change (zlen (@nil vec2) =? 0) with true. cbn [negb app bind]. rewrite app_nil_r.
    rewrite (stack_gg E G t t' Y X Y' X' lats lons lats' lons' ig og d HI HO v dv NV R Hv). cbn [bind].
    pose proof (slice_n_mid [] dv []) as S1. cbn [app] in S1. rewrite app_nil_r, LV in S1. change (zlen (@nil vec2)) with 0 in S1. rewrite S1. cbn [bind]. apply LOOP; intros a b K; discriminate.
  - change (zlen (@nil vec2) =? 0) with true. rewrite (NZ _ lg LL). cbn [negb app bind]. rewrite take_n_all by exact LL. cbn [bind].
    rewrite (stack_gg E G t t' Y X Y' X' lats lons lats' lons' ig og d HI HO (v ++ lg ++ [g_lafs ig]) (dv ++ al ++ [bl])).
    2: { destruct v; [congruence|discriminate]. }
    2: { repeat (apply Forall_app; split); auto. }
    2: { repeat (apply Forall2_app; auto). }
    cbn [bind]. pose proof (slice_n_mid [] dv (al ++ [bl])) as S1. cbn [app] in S1. rewrite LV in S1. change (zlen (@nil vec2)) with 0 in S1. rewrite S1. cbn [bind].
    pose proof (Forall2_len _ _ _ Hal) as LA. pose proof (slice_n_mid dv al [bl]) as S2. rewrite LV, LA, LL in S2. rewrite S2. cbn [bind].
    rewrite (app_assoc dv al [bl]), znth_app_r by (rewrite zlen_app; lia). replace (_ - _) with 0 by (rewrite zlen_app; lia). cbn [bind znth]. rewrite znth_cons0. cbn [bind].
    apply LOOP; intros a b K; [discriminate|injection K as <- <-]. split; [lia|]. split; eauto.
  - change (zlen (@nil vec2) =? 0) with true. rewrite (NZ _ eg LE). cbn [negb app bind]. rewrite take_n_all by exact LE. cbn [bind]. rewrite app_nil_r.
    rewrite (stack_gg E G t t' Y X Y' X' lats lons lats' lons' ig og d HI HO (v ++ eg ++ [g_elevs ig]) (dv ++ ae ++ [be])).
    2: { destruct v; [congruence|discriminate]. }
    2: { repeat (apply Forall_app; split); auto. }
    2: { repeat (apply Forall2_app; auto). }
    cbn [bind]. pose proof (slice_n_mid [] dv (ae ++ [be])) as S1. cbn [app] in S1. rewrite LV in S1. change (zlen (@nil vec2)) with 0 in S1. rewrite S1. cbn [bind].
    pose proof (Forall2_len _ _ _ Hae) as LA. pose proof (slice_n_mid dv ae [be]) as S2. rewrite LV, LA, LE in S2. rewrite S2. cbn [bind].
    rewrite (app_assoc dv ae [be]), znth_app_r by (rewrite zlen_app; lia). replace (_ - _) with 0 by (rewrite zlen_app; lia). cbn [bind znth]. rewrite znth_cons0. cbn [bind].
    apply LOOP; intros a b K; [injection K as <- <-|discriminate]. split; [lia|]. split; eauto.
  - rewrite (NZ _ eg LE), (NZ _ lg LL). cbn [negb app bind]. rewrite !take_n_all by assumption. cbn [bind].
    rewrite (stack_gg E G t t' Y X Y' X' lats lons lats' lons' ig og d HI HO (v ++ (eg ++ [g_elevs ig]) ++ (lg ++ [g_lafs ig])) (dv ++ (ae ++ [be]) ++ (al ++ [bl]))).
    2: { destruct v; [congruence|discriminate]. }
    2: { repeat (apply Forall_app; split); auto. }
    2: { repeat (apply Forall2_app; auto). }
    cbn [bind]. pose proof (slice_n_mid [] dv ((ae ++ [be]) ++ (al ++ [bl]))) as S1. cbn [app] in S1. rewrite LV in S1. change (zlen (@nil vec2)) with 0 in S1. rewrite S1. cbn [bind].
    pose proof (Forall2_len _ _ _ Hae) as LA. pose proof (Forall2_len _ _ _ Hal) as LB.
    pose proof (slice_n_mid dv ae ([be] ++ al ++ [bl])) as S2. rewrite LV, LA, LE in S2.
    replace (dv ++ (ae ++ [be]) ++ al ++ [bl]) with (dv ++ ae ++ [be] ++ al ++ [bl]) by (rewrite <- !app_assoc; reflexivity). rewrite S2. cbn [bind].
    assert (Z1 : znth (dv ++ ae ++ [be] ++ al ++ [bl]) (2 * zlen v) = Ok be).
    { rewrite (app_assoc dv ae), znth_app_r by (rewrite zlen_app; lia). replace (_ - _) with 0 by (rewrite zlen_app; lia). reflexivity. }
    rewrite Z1. cbn [bind].
    pose proof (slice_n_mid (dv ++ ae ++ [be]) al [bl]) as S3. rewrite !zlen_app, LV, LA, LB, LE, LL in S3. change (zlen [be]) with 1 in S3.
    replace (2 * zlen v + 1) with (zlen v + (zlen v + 1)) by lia. rewrite <- !app_assoc in S3. rewrite S3. cbn [bind].
    assert (Z2 : znth (dv ++ ae ++ [be] ++ al ++ [bl]) (zlen v + (zlen v + 1) + zlen v) = Ok bl).
    { replace (dv ++ ae ++ [be] ++ al ++ [bl]) with ((dv ++ ae ++ [be] ++ al) ++ [bl]) by (rewrite <- !app_assoc; reflexivity).
      rewrite znth_app_r by (rewrite !zlen_app; change (zlen [be]) with 1; lia). replace (_ - _) with 0 by (rewrite !zlen_app; change (zlen [be]) with 1; lia). reflexivity. }
    rewrite Z2. cbn [bind]. apply LOOP; intros a b K; injection K as <- <-; (split; [lia|]; split; eauto).
Qed.
End GG.

(** ** to points *)
Section GP.
Variables (E : ext) (G : geo) (t t' : ctype) (Y X : Z) (lats lons : list (list Qc)) (las' los' : list Qc) (ig : grid) (op : points) (d : downscaler).
Hypothesis HI : is_grid G t Y X lats lons ig.
Hypothesis HO : is_points G t' las' los' op.
Let n := zlen las'.
Let down f := downscaling_gp2 E G ig op f d.
Let ED : rect Y X (g_elevs ig). Proof. apply (grid_inv _ _ _ _ _ _ _ HI). Qed.
Let LD : rect Y X (g_lafs ig). Proof. apply (grid_inv _ _ _ _ _ _ _ HI). Qed.
Let EO : zlen (s_elevs op) = n. Proof. apply (points_inv _ _ _ _ _ HO). Qed.
Let LO : zlen (s_lafs op) = n. Proof. apply (points_inv _ _ _ _ _ HO). Qed.
Let PN : 0 <= n. Proof. apply zlen_nonneg. Qed.
Let OS : points_size op = n. Proof. apply (op_size G t' las' los' op HO). Qed.
Let down_len f o : rect Y X f -> down f = Ok o -> zlen o = n.
Proof. intros R H. apply (down_gp2_inv E G t t' Y X lats lons las' los' ig op d HI HO f o R H). Qed.
Lemma simple_loop_gp (de dv : vec) g (rd : Z -> res val) : zlen de = n -> zlen dv = n -> (forall i, rd i = znth dv i) ->
  exists out, for1 n (init1 n MV) (fun i => oe <- znth (s_elevs op) i ;; de <- znth de i ;; dv <- rd i ;; Ok (elev_corrected dv oe de g)) = Ok out /\
  simple_points n (s_elevs op) de dv g out.
Proof.
  intros R1 R2 Hrd. rewrite for1_init_tab by lia.
  destruct (mapM_total (fun i => oe <- znth (s_elevs op) i ;; de <- znth de i ;; dv <- rd i ;; Ok (elev_corrected dv oe de g))
    (fun i r => exists v oe ie, znth dv i = Ok v /\ znth (s_elevs op) i = Ok oe /\ znth de i = Ok ie /\ simple_value v oe ie g r) (zrange 0 n)) as (out & Ho & Lo & K).
  - intros i Hi. apply in_zrange in Hi. rewrite Hrd. destruct (znth_some (s_elevs op) i) as [oe Hoe]; [lia|]. destruct (znth_some de i) as [ie Hie]; [lia|]. destruct (znth_some dv i) as [v Hv]; [lia|].
    rewrite Hoe, Hie, Hv. cbn [bind]. eexists. split; [reflexivity|]. exists v, oe, ie. split; [reflexivity|]. split; [reflexivity|]. split; [reflexivity|]. apply simple_ok.
  - exists out. split; [exact Ho|]. rewrite zlen_zrange in Lo. split; [lia|]. intros i Hi. destruct (K i i) as (r & Hr & _ & v & oe & ie & A & B & C & D); [rewrite znth_zrange by lia; f_equal; lia|].
    exists v, oe, ie, r. auto.
Qed.
Lemma simple_gp2_ok v dv de g : rect Y X v -> down v = Ok dv -> down (g_elevs ig) = Ok de ->
  exists out, simple_gradient_gp2 E G ig op v g d = Ok out /\ simple_points n (s_elevs op) de dv g out.
Proof.
  intros R Hv He. unfold simple_gradient_gp2. rewrite (compat_grid2_ok _ _ _ _ _ _ _ _ HI R). cbn [bind negb].
  fold (down v) (down (g_elevs ig)). rewrite Hv, He. cbn [bind]. rewrite OS. apply simple_loop_gp; eauto.
Qed.
Lemma simple_gp3_ok v dv de g : v <> [] -> Forall (rect Y X) v -> Forall2 (fun f o => down f = Ok o) v dv -> down (g_elevs ig) = Ok de ->
  exists out, simple_gradient_gp3 E G ig op v g d = Ok out /\ Forall2 (fun dvt ot => simple_points n (s_elevs op) de dvt g ot) dv out.
Proof.
  intros NE R Hv He. unfold simple_gradient_gp3. rewrite (compat_grid3_ok _ _ _ _ _ _ _ _ HI R). cbn [bind negb].
  rewrite (stack_gp E G t t' Y X lats lons las' los' ig op d HI HO v dv NE R Hv). cbn [bind]. fold (down (g_elevs ig)). rewrite He. cbn [bind]. rewrite OS.
  pose proof (Forall2_len _ _ _ Hv) as HL. pose proof (zlen_nonneg v). rewrite <- HL.
  destruct (mapM_total (fun s => for1 n (init1 n MV) (fun i => oe <- znth (s_elevs op) i ;; de <- znth de i ;; dv <- get2 dv s i ;; Ok (elev_corrected dv oe de g)))
    (fun s ot => exists dvt, znth dv s = Ok dvt /\ simple_points n (s_elevs op) de dvt g ot) (zrange 0 (zlen dv))) as (out & Ho & Lo & K).
  - intros s Hs. apply in_zrange in Hs. destruct (znth_some dv s) as [dvt Hd]; [lia|]. destruct (znth_some v s) as [vt Hvt]; [lia|].
    destruct (Forall2_get _ _ _ _ _ Hv Hvt) as (o & Ho & Hdo). assert (o = dvt) by congruence. subst o. rewrite Forall_forall in R. pose proof (R _ (znth_In _ _ _ Hvt)) as Rt.
    destruct (simple_loop_gp de dvt g (fun i => get2 dv s i)) as (out & Hout & Hc); [eauto|eauto| |eauto].
    intros i. unfold get2. rewrite Hd. reflexivity.
  - exists out. rewrite Ho. split; [reflexivity|]. rewrite zlen_zrange in Lo. apply Forall2_znth; [lia|]. intros k a Hk. pose proof (znth_range _ _ _ Hk).
    destruct (K k k) as (ot & Hot & _ & dvt & Hd & Hc); [rewrite znth_zrange by lia; f_equal; lia|]. exists ot. split; [exact Hot|]. congruence.
Qed.
Definition lenp (p : option (vec * vec)) : Prop := forall a b, p = Some (a, b) -> zlen a = n /\ zlen b = n.
Lemma corr_gp p own ne i : lenp p -> zlen own = n -> (p = None -> ne = 0) -> (p <> None -> 0 < ne) -> 0 <= i < n ->
  exists o g c ie, znth own i = Ok o /\ plain_at (fun a => znth a i) p g ie /\ correction_of g o ie c /\
    forall rg, (forall a b, p = Some (a, b) -> rg = znth a i) -> correction ne (znth own i) (znth (sndp [] p) i) rg = Ok c.
Proof.
  intros RP RO N1 N2 Hi. destruct (znth_some own i) as [o Ho]; [lia|]. rewrite Ho. destruct p as [[a b]|].
  - destruct (RP a b eq_refl) as [Ra Rb]. destruct (znth_some a i) as [g Hg]; [lia|]. destruct (znth_some b i) as [ie Hie]; [lia|].
    destruct (corr_some ne o ie g) as (c & Hc & HC); [apply N2; discriminate|]. exists o, (Some g), c, ie. split; [reflexivity|]. split; [cbn; eauto|]. split; [exact HC|].
    intros rg Hrg. rewrite (Hrg a b eq_refl), Hg. cbn [sndp]. rewrite Hie. exact Hc.
  - exists o, None, (Fin 0%Qc), NaN. split; [reflexivity|]. split; [reflexivity|]. split; [reflexivity|]. intros rg _. rewrite N1 by reflexivity. apply corr_none.
Qed.
Lemma full_loop_gp pe pl dv ne nl rl re : zlen dv = n -> lenp pe -> lenp pl -> (pe = None -> ne = 0) -> (pe <> None -> 0 < n -> 0 < ne) -> (pl = None -> nl = 0) -> (pl <> None -> 0 < n -> 0 < nl) ->
  (forall a b i, pe = Some (a, b) -> re i = znth a i) -> (forall a b i, pl = Some (a, b) -> rl i = znth a i) ->
  exists out, for1 n dv (fun i =>
    lc <- correction nl (znth (s_lafs op) i) (znth (sndp [] pl) i) (rl i) ;;
    ec <- correction ne (znth (s_elevs op) i) (znth (sndp [] pe) i) (re i) ;;
    o <- znth dv i ;; Ok (vadd o (vadd lc ec))) = Ok out /\ full_points n (s_elevs op) (s_lafs op) pe pl dv out.
Proof.
  intros RV RE RL N1 N2 N3 N4 Hre Hrl. rewrite for1_tab by exact RV.
  destruct (mapM_total (fun i =>
    lc <- correction nl (znth (s_lafs op) i) (znth (sndp [] pl) i) (rl i) ;;
    ec <- correction ne (znth (s_elevs op) i) (znth (sndp [] pe) i) (re i) ;;
    o <- znth dv i ;; Ok (vadd o (vadd lc ec)))
    (fun i r => exists v ge oe ie gl ol il,
      znth dv i = Ok v /\ znth (s_elevs op) i = Ok oe /\ plain_at (fun a => znth a i) pe ge ie /\
      znth (s_lafs op) i = Ok ol /\ plain_at (fun a => znth a i) pl gl il /\ full_value v ge oe ie gl ol il r) (zrange 0 n)) as (out & Ho & Lo & K).
  - intros i Hi. apply in_zrange in Hi. destruct (corr_gp pe (s_elevs op) ne i RE EO N1) as (oe & ge & ce & ie & A1 & A2 & A3 & A4); [intros; apply N2; [assumption|lia]|lia|].
    destruct (corr_gp pl (s_lafs op) nl i RL LO N3) as (ol & gl & cl & il & B1 & B2 & B3 & B4); [intros; apply N4; [assumption|lia]|lia|]. destruct (znth_some dv i) as [v Hv]; [lia|].
    rewrite A4 by eauto. rewrite B4 by eauto. cbn [bind]. rewrite Hv. cbn [bind]. eexists. split; [reflexivity|].
    exists v, ge, oe, ie, gl, ol, il. repeat (split; [assumption || reflexivity|]). apply full_ok; assumption.
  - exists out. split; [exact Ho|]. rewrite zlen_zrange in Lo. split; [lia|]. intros i Hi.
    destruct (K i i) as (r & Hr & _ & v & ge & oe & ie & gl & ol & il & A & B & C & D & F & H'); [rewrite znth_zrange by lia; f_equal; lia|].
    exists v, ge, oe, ie, gl, ol, il, r. auto 8.
Qed.
Lemma full_gp2_ok v eg lg dv pe pl : rect Y X v -> (eg = [] \/ rect Y X eg) -> (lg = [] \/ rect Y X lg) -> down v = Ok dv ->
  plain down eg (g_elevs ig) pe -> plain down lg (g_lafs ig) pl ->
  exists out, full_gradient_gp2 E G ig op v eg lg d = Ok out /\ full_points n (s_elevs op) (s_lafs op) pe pl dv out.
Proof.
  intros R Re Rl Hv Pe Pl. unfold full_gradient_gp2. rewrite OS. fold (down v). rewrite Hv. cbn [bind]. fold (down eg) (down lg) (down (g_elevs ig)) (down (g_lafs ig)).
  assert (PL : forall g own p, rect Y X own -> (g = [] \/ rect Y X g) -> plain down g own p ->
    (if negb (zlen g =? 0) then a <- down g ;; b <- down own ;; Ok (a, b) else Ok ([], [])) = Ok (fstp [] p, sndp [] p) /\ lenp p).
  { intros g own p RO Rg [[-> ->]|(a & b & NE & Ha & Hb & ->)].
    - split; [reflexivity|]. intros ? ? K; discriminate.
    - destruct Rg as [->|Rg]; [congruence|]. rewrite (zlen_neq0 g NE). cbn [negb]. rewrite Ha, Hb. split; [reflexivity|]. intros a' b' K. injection K as <- <-. eauto. }
  destruct (PL _ _ _ ED Re Pe) as [E1 L1]. destruct (PL _ _ _ LD Rl Pl) as [E2 L2]. rewrite E1. cbn [bind]. rewrite E2. cbn [bind].
  apply full_loop_gp; eauto.
  - intros ->. reflexivity.
  - destruct pe as [[a b]|]; [intros _|congruence]. destruct (L1 a b eq_refl) as [RA _]. cbn. lia.
  - intros ->. reflexivity.
  - destruct pl as [[a b]|]; [intros _|congruence]. destruct (L2 a b eq_refl) as [RA _]. cbn. lia.
  - intros a b i ->. reflexivity.
  - intros a b i ->. reflexivity.
Qed.
Lemma full_gp3_ok v eg lg dv pe pl : v <> [] -> Forall (rect Y X) v -> Forall (rect Y X) eg -> Forall (rect Y X) lg -> Forall2 (fun f o => down f = Ok o) v dv ->
  plain3 down eg (g_elevs ig) (zlen v) pe -> plain3 down lg (g_lafs ig) (zlen v) pl ->
  exists out, full_gradient_gp3 E G ig op v eg lg d = Ok out /\ each_time (full_points n (s_elevs op) (s_lafs op)) pe pl dv out.
Proof.
  intros NV R Re Rl Hv Pe Pl. pose proof (Forall2_len _ _ _ Hv) as LV.
  assert (PV : 0 < zlen v) by (destruct v; [congruence|rewrite zlen_cons; pose proof (zlen_nonneg v); lia]).
  unfold full_gradient_gp3. rewrite OS. rewrite (stack_gp E G t t' Y X lats lons las' los' ig op d HI HO v dv NV R Hv). cbn [bind].
  fold (down (g_elevs ig)) (down (g_lafs ig)).
  assert (RES : forall (g : vec3) a, Forall (rect Y X) g -> Forall2 (fun f o => down f = Ok o) g a -> Forall (fun o => zlen o = n) a).
  { intros g a Rg H. induction H as [|f o g a Hf _ IH]; [constructor|]. inversion Rg; subst. constructor; eauto. }
  assert (PL : forall g own p, rect Y X own -> Forall (rect Y X) g -> plain3 down g own (zlen v) p ->
    (if negb (zlen g =? 0) then a <- downscaling_gp3 E G ig op g d ;; b <- down own ;; Ok (a, b) else Ok ([], [])) = Ok (fstp [] p, sndp [] p) /\
    (forall a b, p = Some (a, b) -> zlen a = zlen v /\ Forall (fun o => zlen o = n) a /\ zlen b = n)).
  { intros g own p RO Rg [[-> ->]|(a & b & LG & Ha & Hb & ->)].
    - split; [reflexivity|]. intros ? ? K; discriminate.
    - replace (zlen g =? 0) with false by lia. cbn [negb].
      rewrite (stack_gp E G t t' Y X lats lons las' los' ig op d HI HO g a); [|intros ->; change (zlen (@nil vec2)) with 0 in LG; lia|exact Rg|exact Ha]. cbn [bind]. rewrite Hb. split; [reflexivity|].
      intros a' b' K. injection K as <- <-. pose proof (Forall2_len _ _ _ Ha). split; [lia|]. eauto. }
  destruct (PL _ _ _ ED Re Pe) as [E1 L1]. destruct (PL _ _ _ LD Rl Pl) as [E2 L2]. rewrite E1. cbn [bind]. rewrite E2. cbn [bind].
  destruct (mapM_total (fun s => out <- znth dv s ;; for1 n out (fun i =>
      lc <- correction (zlen (fstp [] pl)) (znth (s_lafs op) i) (znth (sndp [] pl) i) (get2 (fstp [] pl) s i) ;;
      ec <- correction (zlen (fstp [] pe)) (znth (s_elevs op) i) (znth (sndp [] pe) i) (get2 (fstp [] pe) s i) ;;
      o <- znth out i ;; Ok (vadd o (vadd lc ec))))
      (fun s o => exists f qe ql, znth dv s = Ok f /\ at_time pe s qe /\ at_time pl s ql /\ full_points n (s_elevs op) (s_lafs op) qe ql f o) (zrange 0 (zlen v))) as (out & Ho & Lo & K).
    - intros s Hs. apply in_zrange in Hs. destruct (znth_some v s) as [vt Hvt]; [lia|]. destruct (Forall2_get _ _ _ _ _ Hv Hvt) as (dvt & Hd & Hdo). rewrite Hd. cbn [bind].
      rewrite Forall_forall in R. pose proof (down_len _ _ (R _ (znth_In _ _ _ Hvt)) Hdo) as RD.
      assert (SEL : forall p : option (vec2 * vec), (forall a b, p = Some (a, b) -> zlen a = zlen v /\ Forall (fun o => zlen o = n) a /\ zlen b = n) ->
        exists q, at_time p s q /\ lenp q /\ (q = None -> zlen (fstp [] p) = 0) /\ (q <> None -> 0 < zlen (fstp [] p)) /\ sndp [] p = sndp [] q /\
          (forall a b i, q = Some (a, b) -> get2 (fstp [] p) s i = znth a i)).
      { intros [[a b]|] Hp.
        - destruct (Hp a b eq_refl) as (Q1 & R1 & R2). destruct (znth_some a s) as [f Hf]; [lia|]. exists (Some (f, b)). split; [cbn; eauto|]. split.
          + intros a' b' K. injection K as <- <-. rewrite Forall_forall in R1. split; [apply R1; eapply znth_In; eauto|exact R2].
          + split; [discriminate|]. split; [intros _; cbn; lia|]. split; [reflexivity|]. intros a' b' i K. injection K as <- <-. cbn. unfold get2. rewrite Hf. reflexivity.
        - exists None. split; [reflexivity|]. split; [intros ? ? K; discriminate|]. split; [reflexivity|]. split; [congruence|]. split; [reflexivity|]. intros ? ? ? K; discriminate. }
      destruct (SEL pe L1) as (qe & A1 & A2 & A3 & A4 & A5 & A6). destruct (SEL pl L2) as (ql & B1 & B2 & B3 & B4 & B5 & B6). rewrite A5, B5.
      destruct (full_loop_gp qe ql dvt (zlen (fstp [] pe)) (zlen (fstp [] pl)) (fun i => get2 (fstp [] pl) s i) (fun i => get2 (fstp [] pe) s i)) as (o & Hoo & Hc); auto.
      exists o. split; [exact Hoo|]. exists dvt, qe, ql. auto.
    - exists out. rewrite Ho. split; [reflexivity|]. rewrite zlen_zrange in Lo. split; [lia|]. intros s f Hf. pose proof (znth_range _ _ _ Hf).
      destruct (K s s) as (o & Hoo & _ & f' & qe & ql & Q1 & Q2 & Q3 & Q4); [rewrite znth_zrange by lia; f_equal; lia|]. assert (f' = f) by congruence. subst f'. exists qe, ql, o. auto.
Qed.
End GP.
