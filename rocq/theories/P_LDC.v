(** Proofs for local distribution correction. *)
From Coq Require Import Permutation Sorted Qround.
From Verif Require Import Base ListLib QcTac M_Geo M_Interp M_LDC S_Stat S_Interp S_Geo S_Near S_Curve S_LDC P_Stat P_Interp P_Even P_Curve P_Geo P_Neighbours P_Grid P_Points P_Near P_Grd P_OI P_OIGrid P_NeighAll P_NScore P_OIRef.
Local Open Scope Z_scope.

Lemma qmul_nonneg a b : (0 <= a -> 0 <= b -> 0 <= a * b)%Qc.
Proof. intros. qnra. Qed.

(** ** collecting the pairs *)
Definition fobs (p : Qc * Qc * Qc) : val * val := (Fin (fst (fst p)), Fin (snd p)).
Definition fbg (p : Qc * Qc * Qc) : val * val := (Fin (snd (fst p)), Fin (snd p)).
Definition st_of (ps : list (Qc * Qc * Qc)) : list (val * val) * list (val * val) * val * Z :=
  (map fobs ps, map fbg ps, Fin (qsum (map snd ps)), zlen ps).
Lemma st_app ps o f w : (map fobs ps ++ [(Fin o, Fin w)], map fbg ps ++ [(Fin f, Fin w)], vadd (Fin (qsum (map snd ps))) (Fin w), zlen ps + 1)
  = st_of (ps ++ [(o, f, w)]).
Proof.
  unfold st_of. rewrite !map_app, zlen_app. cbn [map fobs fbg fst snd]. rewrite qsum_app. cbn [qsum vadd]. do 3 f_equal. ring.
Qed.
Lemma add_ok pobs pbg w k t ps : (exists o, get2 pobs t k = Ok o) -> (exists b, get2 pbg t k = Ok b) ->
  ldc_add pobs pbg (Fin (w k)) k (st_of ps) t = Ok (st_of (ps ++ pair_of pobs pbg w k t)).
Proof.
  intros [o Ho] [b Hb]. unfold ldc_add, pair_of. rewrite Ho, Hb. cbn [bind].
  destruct o as [| | |o]; cbn [is_valid negb]; rewrite ?app_nil_r; try reflexivity.
  destruct b as [| | |b]; cbn [is_valid negb]; rewrite ?app_nil_r; try reflexivity.
  change (vltb (Fin o) (fz 0)) with (qltb o 0). change (vltb (Fin b) (fz 0)) with (qltb b 0).
  destruct (qltb_spec o 0), (qleb_spec 0 o); try (exfalso; qlra); cbn [orb andb]; [rewrite app_nil_r; reflexivity|].
  destruct (qltb_spec b 0), (qleb_spec 0 b); try (exfalso; qlra); cbn [orb andb]; [rewrite app_nil_r; reflexivity|].
  rewrite <- st_app. reflexivity.
Qed.
Lemma times_ok pobs pbg w k : forall ts ps, (forall t, In t ts -> (exists o, get2 pobs t k = Ok o) /\ (exists b, get2 pbg t k = Ok b)) ->
  foldM (ldc_add pobs pbg (Fin (w k)) k) (st_of ps) ts = Ok (st_of (ps ++ concat (map (pair_of pobs pbg w k) ts))).
Proof.
  induction ts as [|t ts IH]; intros ps H; cbn [foldM map concat]; [rewrite app_nil_r; reflexivity|].
  destruct (H t (or_introl eq_refl)) as [A B]. rewrite add_ok by assumption. cbn [bind]. rewrite IH by (intros; apply H; right; assumption).
  rewrite app_assoc. reflexivity.
Qed.
Lemma collect_ok bgc bg pts pobs pbg p1 w n reach : (forall p q, bgc p q = Ok (bg p q)) -> weights_of pts bg p1 reach w ->
  (forall k, 0 <= k < n -> exists pk, points_get pts k = Ok pk) -> rect (zlen pobs) n pobs -> rect (zlen pobs) n pbg ->
  forall I, (forall k, In k I -> 0 <= k < n) -> (forall k, In k I -> reach k) -> ldc_collect bgc pts pobs pbg p1 I = Ok (st_of (pairs_of pobs pbg w I)).
Proof.
  intros HB HW HP HO HG I HI HRe. unfold ldc_collect, pairs_of. change ([], [], fz 0, 0) with (st_of []).
  change (concat _) with ([] ++ concat (map (fun k => concat (map (pair_of pobs pbg w k) (zrange 0 (zlen pobs)))) I)).
  generalize (@nil (Qc * Qc * Qc)). induction I as [|k I IH]; intros ps; cbn [foldM map concat]; [rewrite app_nil_r; reflexivity|].
  assert (Hk : 0 <= k < n) by (apply HI; left; reflexivity). destruct (HP k Hk) as [pk Hpk]. rewrite Hpk. cbn [bind].
  rewrite HB. cbn [bind]. destruct (HW k pk (HRe k (or_introl eq_refl)) Hpk) as [-> _].
  rewrite times_ok.
  - cbn [bind]. rewrite IH by (intros; first [apply HI | apply HRe]; right; assumption). rewrite app_assoc. reflexivity.
  - intros t Ht. apply in_zrange in Ht. split; eapply rect_get2; eauto.
Qed.
Lemma pairs_nonneg pobs pbg w I p : In p (pairs_of pobs pbg w I) -> (0 <= fst (fst p) /\ 0 <= snd (fst p))%Qc /\ exists k, In k I /\ snd p = w k.
Proof.
  unfold pairs_of. intros H. apply in_concat in H as (l & Hl & Hp). apply in_map_iff in Hl as (k & <- & Hk).
  apply in_concat in Hp as (l' & Hl' & Hp). apply in_map_iff in Hl' as (t & <- & Ht). unfold pair_of in Hp.
  destruct (get2 pobs t k) as [[| | |o]| | |]; try destruct Hp. destruct (get2 pbg t k) as [[| | |f]| | |]; try destruct Hp.
  destruct (qleb_spec 0 o), (qleb_spec 0 f); cbn [andb] in Hp; try destruct Hp as [<-|[]]; try destruct Hp. cbn. split; [auto|]. eauto.
Qed.

(** ** sorting and cutting *)
Definition fin2 (p : Qc * Qc) : val * val := (Fin (fst p), Fin (snd p)).
Lemma sort_fin L l : ldclib_ok L -> exists s, e_sort L (map fin2 l) = map fin2 s /\ Permutation s l /\ StronglySorted (fun x y => (fst x <= fst y)%Qc) s.
Proof.
  intros HL. pose proof (ok_sperm _ HL (map fin2 l)) as P. destruct (Permutation_map_inv _ _ P) as (s & E & Ps). exists s.
  split; [exact E|]. split; [symmetry; exact Ps|].
  assert (SS : StronglySorted (fun a b => vleb (fst a) (fst b) = true) (map fin2 s)).
  { rewrite <- E. apply (ok_ssorted _ HL). intros e He. apply in_map_iff in He as (p & <- & _). discriminate. }
  clear -SS. induction s as [|x s IH]; [constructor|]. cbn [map] in SS. inversion SS as [|? ? S F]; subst. constructor; [apply IH; exact S|].
  rewrite Forall_forall in F |- *. intros y Hy. specialize (F (fin2 y) (in_map _ _ _ Hy)). cbn [fin2 fst] in F. rewrite P_Stat.vleb_Fin in F.
  destruct (qleb_spec (fst x) (fst y)); [assumption|discriminate].
Qed.
Lemma floor_bounds q : is_floor q (Qfloor q).
Proof.
  unfold is_floor. split; [apply qfloor_le|]. pose proof (Qlt_floor q) as L. unfold qz, Qclt. rewrite this_Q2Qc. exact L.
Qed.
Lemma cut_spec {A} (l : list A) d0 d1 : 0 <= d0 <= d1 -> d1 <= zlen l -> exists a m c, l = a ++ m ++ c /\ zlen a = d0 /\ zlen (a ++ m) = d1 /\ cut l d0 d1 = Ok m.
Proof.
  intros H1 H2. exists (firstn (Z.to_nat d0) l), (firstn (Z.to_nat (d1 - d0)) (skipn (Z.to_nat d0) l)), (skipn (Z.to_nat (d1 - d0)) (skipn (Z.to_nat d0) l)).
  rewrite !firstn_skipn. split; [reflexivity|]. rewrite zlen_app. unfold zlen in *. rewrite !firstn_length, skipn_length. split; [lia|]. split; [lia|].
  unfold cut. rewrite !(proj2 (Z.leb_le _ _)) by (unfold zlen; lia). reflexivity.
Qed.
Lemma count_index n q : 0 <= n -> (0 <= q <= 1)%Qc -> to_int (vmul (fz n) (Fin q)) = Ok (Qfloor (qz n * q)%Qc) /\ 0 <= Qfloor (qz n * q)%Qc <= n.
Proof.
  intros Hn [Hq1 Hq2]. assert (N : (0 <= qz n)%Qc) by (rewrite <- qz_0; apply qz_le; exact Hn).
  assert (P : (0 <= qz n * q)%Qc) by (set (z := qz n) in *; clearbody z; apply qmul_nonneg; assumption).
  split.
  - unfold fz. rewrite vmul_Fin. cbn [to_int]. rewrite ztrunc_floor by exact P. reflexivity.
  - split.
    + rewrite <- (qfloor_qz 0). apply qfloor_mono. exact P.
    + rewrite <- (qfloor_qz n) at 2. apply qfloor_mono. set (z := qz n) in *. clearbody z.
      assert (0 <= z * (1 - q))%Qc by (apply qmul_nonneg; [exact N|qlra]). qlra.
Qed.
Lemma middle_ok L l lo hi : ldclib_ok L -> (0 <= lo)%Qc -> (lo <= hi)%Qc -> (hi <= 1)%Qc ->
  exists m, cut (e_sort L (map fin2 l)) (Qfloor (qz (zlen l) * lo)%Qc) (Qfloor (qz (zlen l) * hi)%Qc) = Ok (map fin2 m) /\ middle lo hi l m /\
    zlen m = Qfloor (qz (zlen l) * hi)%Qc - Qfloor (qz (zlen l) * lo)%Qc.
Proof.
  intros HL H1 H2 H3. destruct (sort_fin L l HL) as (s & E & P & S). rewrite E.
  assert (LS : zlen s = zlen l) by (unfold zlen; rewrite (Permutation_length P); reflexivity).
  destruct (count_index (zlen l) lo) as [_ A]; [apply zlen_nonneg|split; qlra|].
  destruct (count_index (zlen l) hi) as [_ B]; [apply zlen_nonneg|split; qlra|].
  assert (M : Qfloor (qz (zlen l) * lo)%Qc <= Qfloor (qz (zlen l) * hi)%Qc).
  { apply qfloor_mono. assert (N : (0 <= qz (zlen l))%Qc) by (rewrite <- qz_0; apply qz_le; apply zlen_nonneg). set (z := qz (zlen l)) in *. clearbody z.
    assert (0 <= z * (hi - lo))%Qc by (apply qmul_nonneg; [exact N|qlra]). qlra. }
  set (d0 := Qfloor (qz (zlen l) * lo)%Qc) in *. set (d1 := Qfloor (qz (zlen l) * hi)%Qc) in *.
  destruct (cut_spec s d0 d1) as (a & m & c & E1 & E2 & E3 & E4); [lia|lia|]. exists m. split; [|split].
  - unfold cut in *. rewrite zlen_map. destruct ((0 <=? d0) && (d0 <=? d1) && (d1 <=? zlen s)); [|discriminate]. injection E4 as E4.
    rewrite skipn_map, firstn_map, E4. reflexivity.
  - exists a, c. rewrite <- E1, E2, E3. repeat split; try assumption; apply floor_bounds.
  - rewrite zlen_app in E3. lia.
Qed.

(** ** the levels *)
Fixpoint csum (acc : Qc) (w : list Qc) : list Qc := match w with [] => [] | x :: t => (acc + x)%Qc :: csum (acc + x) t end.
Lemma cumul_fin : forall w acc, cumul (Fin acc) (map Fin w) = map Fin (csum acc w).
Proof. induction w as [|x w IH]; intros acc; cbn [cumul csum map]; [reflexivity|]. rewrite vadd_Fin, IH. reflexivity. Qed.
Lemma zlen_csum : forall w acc, zlen (csum acc w) = zlen w.
Proof. induction w; intros; cbn [csum]; [reflexivity|]. rewrite !zlen_cons, IHw. reflexivity. Qed.
Lemma csum_last : forall w acc x, qnth (x :: csum acc w) (zlen w) = if 0 <? zlen w then (acc + qsum w)%Qc else x.
Proof.
  induction w as [|y w IH]; intros acc x; [reflexivity|]. cbn [csum]. rewrite zlen_cons. pose proof (zlen_nonneg w).
  rewrite qnth_consS by lia. replace (zlen w + 1 - 1) with (zlen w) by lia. rewrite IH.
  rewrite (proj2 (Z.ltb_lt 0 (zlen w + 1))) by lia. cbn [qsum]. destruct (Z.ltb_spec 0 (zlen w)); [ring|].
  destruct w; [cbn [qsum]; ring|rewrite zlen_cons in *; pose proof (zlen_nonneg w); lia].
Qed.
Lemma csum_levels : forall w acc, csum acc w = map (fun j => (acc + qsum (firstn (Z.to_nat j) w))%Qc) (zrange 1 (zlen w + 1)).
Proof.
  induction w as [|y w IH]; intros acc; [reflexivity|]. cbn [csum]. pose proof (zlen_nonneg w). rewrite zlen_cons.
  rewrite zrange_cons by lia. cbn [map]. f_equal; [change (Z.to_nat 1) with 1%nat; cbn [firstn qsum]; ring|].
  rewrite IH. replace (zrange (1 + 1) (zlen w + 1 + 1)) with (map (fun j => j + 1) (zrange 1 (zlen w + 1))).
  - rewrite map_map. apply map_ext_in. intros j Hj. apply in_zrange in Hj. replace (Z.to_nat (j + 1)) with (S (Z.to_nat j)) by lia. cbn [firstn qsum]. ring.
  - symmetry. apply (zrange_shift 1 (zlen w + 1) 1).
Qed.
Lemma levels_ok lo hi m : (forall p, In p m -> 0 < snd p)%Qc ->
  levels (Fin lo) (Fin hi) (map snd (map fin2 m)) = Ok (map Fin (curve_levels lo hi m)).
Proof.
  intros HW. unfold levels, fz. rewrite map_map. change (map (fun x => snd (fin2 x)) m) with (map (fun x => Fin (snd x)) m). rewrite <- (map_map snd Fin).
  rewrite qz_0, cumul_fin. rewrite zlen_cons, zlen_map, zlen_csum, zlen_map. change (Fin 0 :: map Fin (csum 0 (map snd m))) with (map Fin (0%Qc :: csum 0 (map snd m))).
  replace (zlen m + 1 - 1) with (zlen m) by lia. pose proof (zlen_nonneg m).
  rewrite znth_mapFin by (rewrite zlen_cons, zlen_csum, zlen_map; lia). cbn [bind].
  pose proof (csum_last (map snd m) 0 0) as CL. rewrite zlen_map in CL. rewrite CL. unfold curve_levels. cbn [map]. do 2 f_equal.
  rewrite csum_levels, zlen_map, !map_map. apply map_ext_in. intros j Hj. apply in_zrange in Hj.
  destruct (Z.ltb_spec 0 (zlen m)); [|lia]. rewrite Qcplus_0_l.
  assert (P : (0 < qsum (map snd m))%Qc).
  { clear -HW H0. destruct m as [|p m]; [unfold zlen in H0; cbn in H0; lia|]. cbn [map qsum].
    assert (0 <= qsum (map snd m))%Qc.
    { clear H0. assert (K : forall p, In p m -> (0 < snd p)%Qc) by (intros; apply HW; right; assumption). clear HW. induction m; cbn [map qsum]; [apply Qcle_refl|].
      pose proof (K a (or_introl eq_refl)). assert (0 <= qsum (map snd m))%Qc by (apply IHm; intros; apply K; right; assumption). qlra. }
    pose proof (HW p (or_introl eq_refl)). qlra. }
  assert (D : forall x, vdiv (Fin x) (Fin (qsum (map snd m))) = Fin (x / qsum (map snd m))).
  { intros x. unfold vdiv. destruct (qeqb_spec (qsum (map snd m)) 0) as [E0|_]; [rewrite E0 in P; exfalso; qlra|reflexivity]. }
  rewrite Qcplus_0_l, D. reflexivity.
Qed.
Lemma qsum_pos (m : list (Qc * Qc)) : (forall p, In p m -> 0 < snd p)%Qc -> m <> [] -> (0 < qsum (map snd m))%Qc.
Proof.
  intros HW HN. destruct m as [|p m]; [contradiction|]. cbn [map qsum].
  assert (0 <= qsum (map snd m))%Qc.
  { apply qsum_nonneg. intros x Hx. apply in_map_iff in Hx as (q & <- & Hq). apply Qclt_le_weak. apply HW. right. exact Hq. }
  pose proof (HW p (or_introl eq_refl)). qlra.
Qed.
Lemma qnth_zlev (f : Z -> Qc) n j : 0 <= n -> 1 <= j <= n -> qnth (0%Qc :: map f (zrange 1 (n + 1))) j = f j.
Proof.
  intros Hn Hj. rewrite qnth_consS by lia. 
  assert (R : 0 <= j - 1 < zlen (map f (zrange 1 (n + 1)))) by (rewrite zlen_map, zlen_zrange by lia; lia).
  pose proof (qnth_znth _ _ R) as E. rewrite znth_map in E. rewrite znth_zrange in E by lia. cbn in E. injection E as E. rewrite <- E. f_equal. lia.
Qed.
Lemma zlen_curve lo hi m : zlen (curve_values m) = zlen m + 1 /\ zlen (curve_levels lo hi m) = zlen m + 1.
Proof.
  unfold curve_values, curve_levels. rewrite !zlen_cons, !zlen_map, zlen_zrange. pose proof (zlen_nonneg m). lia.
Qed.
Lemma level_at lo hi m j : 1 <= j <= zlen m ->
  qnth (curve_levels lo hi m) j = (lo + qsum (firstn (Z.to_nat j) (map snd m)) / qsum (map snd m) * (hi - lo))%Qc.
Proof. intros H. unfold curve_levels. rewrite qnth_zlev by lia. reflexivity. Qed.
Lemma psum_step (w : list Qc) j : 0 <= j < zlen w -> qsum (firstn (Z.to_nat (j + 1)) w) = (qsum (firstn (Z.to_nat j) w) + qnth w j)%Qc.
Proof.
  revert j. induction w as [|x w IH]; intros j H; [unfold zlen in H; cbn in H; lia|]. rewrite zlen_cons in H.
  replace (Z.to_nat (j + 1)) with (S (Z.to_nat j)) by lia. cbn [firstn qsum].
  destruct (Z.eq_dec j 0) as [->|N].
  - change (Z.to_nat 0) with 0%nat. cbn [firstn qsum]. rewrite qnth_cons0. ring.
  - pose proof (IH (j - 1) ltac:(lia)) as E. replace (j - 1 + 1) with j in E by lia. rewrite E. rewrite qnth_consS by lia.
    replace (Z.to_nat j) with (S (Z.to_nat (j - 1))) by lia. cbn [firstn qsum]. ring.
Qed.
Lemma ss_qnth (R : Qc -> Qc -> Prop) : forall X, (forall i j, 0 <= i < j -> j < zlen X -> R (qnth X i) (qnth X j)) -> StronglySorted R X.
Proof.
  induction X as [|x X IH]; intros H; [constructor|]. constructor.
  - apply IH. intros i j Hij Hj. specialize (H (i + 1) (j + 1)). rewrite zlen_cons in H. rewrite !qnth_consS in H by lia.
    replace (i + 1 - 1) with i in H by lia. replace (j + 1 - 1) with j in H by lia. apply H; lia.
  - apply Forall_forall. intros y Hy. apply In_znth in Hy as [k Hk]. pose proof (znth_range _ _ _ Hk) as Rk.
    rewrite qnth_znth in Hk by exact Rk. injection Hk as <-. specialize (H 0 (k + 1)). rewrite zlen_cons in H. rewrite qnth_cons0, qnth_consS in H by lia.
    replace (k + 1 - 1) with k in H by lia. apply H; lia.
Qed.
Lemma adj_mono (f : Z -> Qc) n : (forall j, 0 <= j -> j + 1 < n -> (f j < f (j + 1)%Z)%Qc) -> forall i j, 0 <= i < j -> j < n -> (f i < f j)%Qc.
Proof.
  intros H i j [Hi Hij] Hj. revert i Hi Hij Hj. 
  assert (K : forall d i, 0 <= i -> i + 1 + Z.of_nat d < n -> (f i < f (i + 1 + Z.of_nat d)%Z)%Qc).
  { induction d as [|d IH]; intros i Hi Hn.
    - rewrite Z.add_0_r. apply H; lia.
    - eapply Qclt_trans; [apply IH; lia|]. replace (i + 1 + Z.of_nat (S d)) with (i + 1 + Z.of_nat d + 1) by lia. apply H; lia. }
  intros i Hi Hij Hj. specialize (K (Z.to_nat (j - i - 1)) i Hi). replace (i + 1 + Z.of_nat (Z.to_nat (j - i - 1))) with j in K by lia. apply K. lia.
Qed.
Lemma adj_mono_le (f : Z -> Qc) n : (forall j, 0 <= j -> j + 1 < n -> (f j <= f (j + 1)%Z)%Qc) -> forall i j, 0 <= i < j -> j < n -> (f i <= f j)%Qc.
Proof.
  intros H i j [Hi Hij] Hj. revert i Hi Hij Hj. 
  assert (K : forall d i, 0 <= i -> i + 1 + Z.of_nat d < n -> (f i <= f (i + 1 + Z.of_nat d)%Z)%Qc).
  { induction d as [|d IH]; intros i Hi Hn.
    - rewrite Z.add_0_r. apply H; lia.
    - eapply Qcle_trans; [apply IH; lia|]. replace (i + 1 + Z.of_nat (S d)) with (i + 1 + Z.of_nat d + 1) by lia. apply H; lia. }
  intros i Hi Hij Hj. specialize (K (Z.to_nat (j - i - 1)) i Hi). replace (i + 1 + Z.of_nat (Z.to_nat (j - i - 1))) with j in K by lia. apply K. lia.
Qed.
(** one level to the next: the share of one weight *)
Lemma level_step lo hi m j : (forall p, In p m -> 0 < snd p)%Qc -> (0 <= lo)%Qc -> (lo <= hi)%Qc -> 0 <= j -> j < zlen m ->
  exists c, (0 < c)%Qc /\ (c <= 1)%Qc /\ (j = 0 -> qnth (curve_levels lo hi m) (j + 1) = (lo + c * (hi - lo))%Qc) /\
             (0 < j -> qnth (curve_levels lo hi m) (j + 1) = (qnth (curve_levels lo hi m) j + c * (hi - lo))%Qc).
Proof.
  intros HW H1 H2 Hj Hn. assert (NE : m <> []) by (intros ->; unfold zlen in Hn; cbn in Hn; lia).
  pose proof (qsum_pos _ HW NE) as SP. exists (qnth (map snd m) j / qsum (map snd m))%Qc.
  assert (IN : In (qnth (map snd m) j) (map snd m)) by (apply qnth_In; rewrite zlen_map; lia).
  assert (WP : (0 < qnth (map snd m) j)%Qc) by (apply in_map_iff in IN as (p & <- & Hp); apply HW; exact Hp).
  assert (WL : (qnth (map snd m) j <= qsum (map snd m))%Qc).
  { assert (G : forall l x, (forall y, In y l -> 0 <= y)%Qc -> In x l -> (x <= qsum l)%Qc).
    { clear. induction l as [|y l IH]; intros x H Hin; [destruct Hin|]. destruct Hin as [-> | Hx]; cbn [qsum].
      - pose proof (qsum_nonneg l ltac:(intros; apply H; right; assumption)). qlra.
      - pose proof (IH x ltac:(intros; apply H; right; assumption) Hx). pose proof (H y (or_introl eq_refl)). qlra. }
    apply G; [|exact IN]. intros y Hy. apply in_map_iff in Hy as (p & <- & Hp). apply Qclt_le_weak. apply HW; exact Hp. }
  split; [|split; [|split]].
  - unfold Qcdiv. pose proof (qinv_pos _ SP). set (x := qnth (map snd m) j) in *. set (i := (/ _)%Qc) in *. clearbody x i. qnra.
  - set (x := qnth (map snd m) j) in *. set (s := qsum (map snd m)) in *. clearbody x s.
    assert (N : s <> 0%Qc) by (intros E; rewrite E in SP; qlra). replace 1%Qc with (s / s)%Qc by (field; exact N).
    assert (I : (0 < / s)%Qc) by (apply qinv_pos; exact SP). unfold Qcdiv. set (i := (/ s)%Qc) in *. clearbody i. qnra.
  - intros ->. rewrite level_at by lia. rewrite psum_step by (rewrite zlen_map; lia). change (Z.to_nat 0) with 0%nat. cbn [firstn qsum]. rewrite Qcplus_0_l. reflexivity.
  - intros Hp. rewrite !level_at by lia. rewrite psum_step by (rewrite zlen_map; lia). unfold Qcdiv. ring.
Qed.
Lemma levels_sorted lo hi m : (forall p, In p m -> 0 < snd p)%Qc -> (0 <= lo)%Qc -> (lo <= hi)%Qc -> qsorted (curve_levels lo hi m).
Proof.
  intros HW H1 H2. apply ss_qnth. rewrite (proj2 (zlen_curve lo hi m)). apply adj_mono_le. intros j Hj Hn.
  destruct (level_step lo hi m j HW H1 H2) as (c & C1 & C2 & C3 & C4); [lia|lia|].
  assert (0 <= c * (hi - lo))%Qc by (apply qmul_nonneg; qlra).
  destruct (Z.eq_dec j 0) as [->|N]; [rewrite C3 by reflexivity; change (qnth (curve_levels lo hi m) 0) with 0%Qc; qlra|rewrite C4 by lia; qlra].
Qed.
Lemma levels_increasing lo hi m : (forall p, In p m -> 0 < snd p)%Qc -> (0 <= lo)%Qc -> (lo < hi)%Qc -> increasing (curve_levels lo hi m).
Proof.
  intros HW H1 H2. apply ss_qnth. rewrite (proj2 (zlen_curve lo hi m)). apply adj_mono. intros j Hj Hn.
  destruct (level_step lo hi m j HW H1) as (c & C1 & C2 & C3 & C4); [qlra|lia|lia|].
  assert (0 < c * (hi - lo))%Qc by qnra.
  destruct (Z.eq_dec j 0) as [->|N]; [rewrite C3 by reflexivity; change (qnth (curve_levels lo hi m) 0) with 0%Qc; qlra|rewrite C4 by lia; qlra].
Qed.
Lemma middle_in lo hi l m p : middle lo hi l m -> In p m -> In p l.
Proof.
  intros (a & c & P & _) H. eapply Permutation_in; [exact P|]. apply in_or_app. right. apply in_or_app. left. exact H.
Qed.
Lemma ss_app_l {A} (R : A -> A -> Prop) a b : StronglySorted R (a ++ b) -> StronglySorted R a.
Proof.
  induction a as [|x a IH]; intros H; [constructor|]. cbn in H. inversion H as [|? ? S F]; subst. constructor; [apply IH; exact S|].
  rewrite Forall_forall in *. intros y Hy. apply F. apply in_or_app. left. exact Hy.
Qed.
Lemma ss_app_r {A} (R : A -> A -> Prop) a b : StronglySorted R (a ++ b) -> StronglySorted R b.
Proof. induction a as [|x a IH]; intros H; [exact H|]. cbn in H. inversion H; subst. auto. Qed.
Lemma values_sorted lo hi l m : middle lo hi l m -> (forall p, In p l -> 0 <= fst p)%Qc -> qsorted (curve_values m).
Proof.
  intros M HN. assert (N : forall p, In p m -> (0 <= fst p)%Qc) by (intros p Hp; apply HN; eapply middle_in; eauto).
  destruct M as (a & c & _ & S & _). apply ss_app_r in S. apply ss_app_l in S. unfold curve_values. constructor.
  - clear -S. induction m as [|x m IH]; [constructor|]. inversion S as [|? ? S' F]; subst. cbn [map]. constructor; [apply IH; exact S'|].
    rewrite Forall_forall in *. intros y Hy. apply in_map_iff in Hy as (q & <- & Hq). apply F. exact Hq.
  - apply Forall_forall. intros y Hy. apply in_map_iff in Hy as (q & <- & Hq). apply N. exact Hq.
Qed.
Lemma value_range lo hi l m j : middle lo hi l m -> (forall p, In p l -> 0 <= fst p)%Qc -> 0 <= j <= zlen m -> (0 <= qnth (curve_values m) j <= top m)%Qc.
Proof.
  intros M HN Hj. pose proof (values_sorted _ _ _ _ M HN) as S. destruct (zlen_curve lo hi m) as [Z1 _]. split.
  - change 0%Qc with (qnth (curve_values m) 0). apply qnth_mono; [exact S|lia|lia].
  - unfold top. apply qnth_mono; [exact S|lia|lia].
Qed.
Lemma map_fin_values m : fz 0 :: map fst (map fin2 m) = map Fin (curve_values m).
Proof. unfold curve_values, fz. cbn [map]. rewrite qz_0, !map_map. reflexivity. Qed.
Lemma interp_ok X Y x : qsorted X -> X <> [] -> zlen X = zlen Y -> exists r, interpolate (Fin x) (map Fin X) (map Fin Y) = Ok (Fin r) /\ interp_at X Y x r.
Proof. intros A B C. destruct (interpolate_spec x X Y A B C) as (a & b & r & H1 & H2 & H3). exists r. split; [exact H2|]. exists a, b. auto. Qed.
Lemma fq_tiny : fq (1 # 100) = Fin tiny. Proof. reflexivity. Qed.
Lemma fq_small : fq (1 # 10) = Fin small. Proof. reflexivity. Qed.
Lemma tiny_pos : (0 < tiny)%Qc. Proof. unfold tiny. vcalc. Qed.
Lemma correct_ok L lo hi b ps : ldclib_ok L -> (0 <= lo)%Qc -> (lo <= hi)%Qc -> (hi <= 1)%Qc ->
  (forall p, In p ps -> 0 <= fst (fst p) /\ 0 <= snd (fst p) /\ 0 < snd p)%Qc ->
  exists R F e r, middle lo hi (map p_obs ps) R /\ middle lo hi (map p_bg ps) F /\
     e_exp L (Fin (- (tiny * qsum (map snd ps))))%Qc = Fin e /\ (0 <= e <= 1)%Qc /\
     ldc_correct L (Fin lo) (Fin hi) (Fin b) (map fobs ps) (map fbg ps) (Fin (qsum (map snd ps))) (zlen ps) = Ok (Fin r) /\
     correction lo hi R F e b r /\ (0 <= r)%Qc /\ (map p_obs ps = map p_bg ps -> R = F).
Proof.
  intros HL H1 H2 H3 HP.
  assert (E1 : map fobs ps = map fin2 (map p_obs ps)) by (rewrite map_map; reflexivity).
  assert (E2 : map fbg ps = map fin2 (map p_bg ps)) by (rewrite map_map; reflexivity).
  destruct (middle_ok L (map p_obs ps) lo hi HL H1 H2 H3) as (R & CR & MR & LR).
  destruct (middle_ok L (map p_bg ps) lo hi HL H1 H2 H3) as (F & CF & MF & LF).
  rewrite zlen_map in CR, CF, LR, LF.
  assert (SAME : map p_obs ps = map p_bg ps -> R = F).
  { intros E. rewrite E, CF in CR. injection CR as CR. clear -CR. revert R CR. induction F as [|[a b] F IH]; intros [|[c d] R] H; try discriminate; [reflexivity|].
    cbn in H. injection H as H1 H2 H3. subst. f_equal. apply IH. assumption. }
  assert (LRF : zlen R = zlen F) by lia.
  assert (NR : forall p, In p (map p_obs ps) -> (0 <= fst p)%Qc) by (intros p Hp; apply in_map_iff in Hp as (q & <- & Hq); apply HP; exact Hq).
  assert (NF : forall p, In p (map p_bg ps) -> (0 <= fst p)%Qc) by (intros p Hp; apply in_map_iff in Hp as (q & <- & Hq); apply (HP q Hq)).
  assert (WR : forall p, In p R -> (0 < snd p)%Qc).
  { intros p Hp. eapply middle_in in Hp; [|exact MR]. apply in_map_iff in Hp as (q & <- & Hq). apply (HP q Hq). }
  assert (WF : forall p, In p F -> (0 < snd p)%Qc).
  { intros p Hp. eapply middle_in in Hp; [|exact MF]. apply in_map_iff in Hp as (q & <- & Hq). apply (HP q Hq). }
  assert (SW : (0 <= qsum (map snd ps))%Qc).
  { apply qsum_nonneg. intros x Hx. apply in_map_iff in Hx as (q & <- & Hq). apply Qclt_le_weak. apply (HP q Hq). }
  destruct (ok_exp _ HL (- (tiny * qsum (map snd ps)))%Qc) as (e & Ee & He).
  { pose proof tiny_pos. assert (0 <= tiny * qsum (map snd ps))%Qc by (apply qmul_nonneg; [apply Qclt_le_weak; assumption|assumption]).
    set (z := (tiny * _)%Qc) in *. clearbody z. qlra. }
  destruct (count_index (zlen ps) lo) as [I0 _]; [apply zlen_nonneg|split; qlra|].
  destruct (count_index (zlen ps) hi) as [I1 _]; [apply zlen_nonneg|split; qlra|].
  destruct (zlen_curve lo hi R) as [ZR1 ZR2]. destruct (zlen_curve lo hi F) as [ZF1 ZF2]. pose proof (zlen_nonneg F) as ZN.
  assert (VR : curve_values R <> []) by discriminate. assert (VF : curve_values F <> []) by discriminate.
  destruct (interp_ok (curve_values F) (curve_levels lo hi F) b) as (q & Q1 & Q2); [eapply values_sorted; eauto|exact VF|lia|].
  destruct (interp_ok (curve_levels lo hi R) (curve_values R) q) as (m & M1 & M2); [apply levels_sorted; assumption|discriminate|lia|].
  assert (MB : (0 <= m <= top R)%Qc).
  { destruct M2 as (a' & b' & B1 & B2). eapply interp_rule_between; [exact B1|exact B2|lia|]. intros j Hj _ _. eapply value_range; eauto. lia. }
  assert (TF : (0 <= top F)%Qc) by (eapply (value_range lo hi _ F (zlen F)); eauto; lia).
  assert (UN : ldc_correct L (Fin lo) (Fin hi) (Fin b) (map fobs ps) (map fbg ps) (Fin (qsum (map snd ps))) (zlen ps) =
    Ok (Fin (if qltb b tiny then 0 else if qleb (top R) 0 then (if qltb b (qz 3 * top F) then 0 else if qltb b small then 0 else b)
             else if qleb (top F) b then b + (top R - top F) else (1 - e) * m + e * b)%Qc)).
  { unfold ldc_correct. rewrite I0, I1. cbn [bind]. rewrite E1, E2, CR. cbn [bind]. rewrite CF. cbn [bind].
    rewrite !map_fin_values, !levels_ok by assumption. cbn [bind]. rewrite !zlen_map, ZF1. replace (zlen F + 1 - 1) with (zlen F) by lia.
    rewrite !znth_mapFin by lia. cbn [bind]. assert (TR : qnth (curve_values R) (zlen F) = top R) by (unfold top; rewrite LRF; reflexivity). rewrite TR. change (qnth (curve_values F) (zlen F)) with (top F).
    rewrite fq_tiny, fq_small. change (vltb (Fin b) (Fin tiny)) with (qltb b tiny). change (vltb (Fin b) (Fin small)) with (qltb b small).
    unfold fz. rewrite vmul_Fin. change (vltb (Fin b) (Fin (qz 3 * top F))) with (qltb b (qz 3 * top F)). rewrite qz_0, !P_Stat.vleb_Fin.
    destruct (qltb b tiny); [reflexivity|]. destruct (qleb (top R) 0).
    { destruct (qltb b (qz 3 * top F)); [reflexivity|]. destruct (qltb b small); reflexivity. }
    destruct (qleb (top F) b); [reflexivity|].
    rewrite Q1. cbn [bind]. rewrite M1. cbn [bind]. rewrite vmul_Fin. cbn [vneg]. rewrite Ee. cbn [vsub vneg vadd vmul]. f_equal. f_equal.
    rewrite qz_1. ring. }
  exists R, F, e. eexists. split; [exact MR|]. split; [exact MF|]. split; [exact Ee|]. split; [exact He|]. split; [exact UN|].
  pose proof tiny_pos as TP. assert (TS : (tiny <= small)%Qc) by (vm_compute; discriminate).
  assert (QM : exists q m0, interp_at (curve_values F) (curve_levels lo hi F) b q /\ interp_at (curve_levels lo hi R) (curve_values R) q m0 /\ (0 <= m0 <= top R)%Qc /\ m0 = m)
    by (exists q, m; auto).
  destruct QM as (q0 & m0 & QA & QB & QC & QD). clear Q1 Q2 M1 M2 CR CF LR LF UN I0 I1 E1 E2. unfold correction.
  assert (H4 : (exists q m0, interp_at (curve_values F) (curve_levels lo hi F) b q /\ interp_at (curve_levels lo hi R) (curve_values R) q m0 /\
      0 <= m0 <= top R /\ (1 - e) * m + e * b = (1 - e) * m0 + e * b)%Qc) by (exists q0, m0; subst m0; auto).
  clear QA QB QC QD.
  set (P4 := exists q m0, _) in H4.
  assert (N4 : (0 <= (1 - e) * m)%Qc) by (apply qmul_nonneg; qlra).
  assert (P4' : forall v, v = ((1 - e) * m + e * b)%Qc -> (exists q m0, interp_at (curve_values F) (curve_levels lo hi F) b q /\ interp_at (curve_levels lo hi R) (curve_values R) q m0 /\
      0 <= m0 <= top R /\ v = (1 - e) * m0 + e * b)%Qc) by (intros v ->; exact H4).
  clear H4 P4.
  assert (EB : (0 <= b -> 0 <= e * b)%Qc) by (intros; apply qmul_nonneg; qlra).
  set (ty := tiny) in *. set (sm := small) in *. set (tr := top R) in *. set (tf := top F) in *. set (f3 := (qz 3 * tf)%Qc) in *. clearbody ty sm f3 tr tf.
  set (blend := ((1 - e) * m + e * b)%Qc) in *.
  assert (BN : (0 <= b -> 0 <= blend)%Qc) by (intros K; specialize (EB K); unfold blend; qlra). clearbody blend. clear EB N4.
  rewrite <- and_assoc. split; [|exact SAME]. clear SAME.
  destruct (qltb_spec b ty); [repeat split; intros; try reflexivity; try (exfalso; qlra); apply Qcle_refl|].
  destruct (qleb_spec tr 0).
  { destruct (qltb_spec b f3); [repeat split; intros; try reflexivity; try (exfalso; qlra); apply Qcle_refl|].
    destruct (qltb_spec b sm); [repeat split; intros; try reflexivity; try (exfalso; qlra); apply Qcle_refl|].
    repeat split; intros; try reflexivity; try (exfalso; qlra); try qlra; destruct H0; exfalso; qlra. }
  destruct (qleb_spec tf b).
  { repeat split; intros; try reflexivity; try (exfalso; qlra). qlra. }
  repeat split; intros; try reflexivity; try (exfalso; qlra); [apply P4'; reflexivity|]. apply BN. qlra.
Qed.

(** ** cells *)
Lemma pget_ok G t las los pts k : is_points G t las los pts -> 0 <= k < zlen las -> exists pk, points_get pts k = Ok pk.
Proof.
  intros H Hk. exists (ptk pts k). eapply ptk_ok; [|exact Hk]. apply points_inv. exact H.
Qed.
Lemma cell_ok G L loc bgc bg g t las los pts t' Y X lats lons background pobs pbg lo hi mp i j p1 la lo' w :
  geo_ok G -> ldclib_ok L -> (forall p q, bgc p q = Ok (bg p q)) ->
  is_grid G t' Y X lats lons g -> is_points G t las los pts -> rect Y X background -> valid_loc t la ->
  rect (zlen pobs) (zlen las) pobs -> rect (zlen pobs) (zlen las) pbg -> (0 <= lo)%Qc -> (lo <= hi)%Qc -> (hi <= 1)%Qc ->
  get2 lats i j = Ok la -> get2 lons i j = Ok lo' -> grid_get g i j = Ok p1 ->
  weights_of pts bg p1 (in_reach G t las los loc p1 (position G t la lo')) w ->
  exists v, ldc_cell G L (fun p => Ok (loc p)) bgc g background pts pobs pbg (Fin lo) (Fin hi) mp i j = Ok v /\
  (forall b, get2 background i j = Ok b -> is_valid b = false -> v = b) /\
  (forall b, get2 background i j = Ok (Fin b) -> exists I, NoDup I /\ (forall k, In k I <-> in_reach G t las los loc p1 (position G t la lo') k) /\
     ldc_value L lo hi mp (pairs_of pobs pbg w I) b v).
Proof.
  intros HG HL HB HGr HPt HR V HO HF H1 H2 H3 Hla Hlo Hp1 HW.
  destruct (is_grid_rect _ _ _ _ _ _ _ HGr) as [R1 R2]. destruct (get2_range _ _ _ _ _ _ R1 Hla) as [Hi Hj].
  destruct (rect_get2 _ _ _ i j HR Hi Hj) as [b Hb]. unfold ldc_cell. rewrite Hb. cbn [bind].
  pose proof (grid_inv _ _ _ _ _ _ _ HGr) as (E1 & E2 & _).
  destruct b as [| | |b]; cbn [is_valid negb]; try (eexists; split; [reflexivity|]; split; [intros b E _; congruence|intros b E; discriminate]).
  rewrite E1, E2. rewrite (P_NeighAll.get2_map lats Fin i j la Hla), (P_NeighAll.get2_map lons Fin i j lo' Hlo). cbn [bind]. rewrite Hp1. cbn [bind].
  destruct (points_inv _ _ _ _ _ HPt) as (Z1 & _ & _ & HT & _).
  destruct (points_search G t las los (s_tree pts) la lo' (loc p1) HG HT V) as (I & HIe & ND & HIn). rewrite HIe. cbn [bind].
  assert (RI : forall k, In k I -> 0 <= k < zlen las).
  { intros k Hk. apply HIn in Hk as (q & (la0 & lo0 & A & _) & _). apply (znth_range _ _ _ A). }
  rewrite (collect_ok bgc bg pts pobs pbg p1 w (zlen las) (in_reach G t las los loc p1 (position G t la lo'))); try assumption.
  2:{ intros k Hk. eapply pget_ok; eauto. }
  2:{ intros k Hk. apply HIn in Hk. exact Hk. }
  cbn [bind st_of].
  set (ps := pairs_of pobs pbg w I) in *. unfold st_of. cbv beta iota.
  assert (HP : forall p, In p ps -> (0 <= fst (fst p) /\ 0 <= snd (fst p) /\ 0 < snd p)%Qc).
  { intros p Hp. destruct (pairs_nonneg _ _ _ _ _ Hp) as ((A & B) & k & Hk & Ew). split; [exact A|]. split; [exact B|]. rewrite Ew.
    destruct (pget_ok _ _ _ _ _ k HPt (RI k Hk)) as [pk Hpk]. eapply HW; [|exact Hpk]. apply HIn in Hk. exact Hk. }
  destruct (Z.leb_spec mp (zlen ps)).
  - destruct (correct_ok L lo hi b ps HL H1 H2 H3 HP) as (R & F & e & r & A1 & A2 & A3 & A4 & A5 & A6 & A7 & A8).
    exists (Fin r). split; [exact A5|]. split; [intros b' E V'; assert (b' = Fin b) by congruence; subst b'; discriminate|]. intros b' E. assert (b' = b) by congruence. subst b'.
    exists I. split; [exact ND|]. split; [exact HIn|]. fold ps. split; [intros; lia|]. intros _. exists R, F, e, r. repeat split; try apply A6; try apply A4; auto.
  - exists (Fin b). split; [reflexivity|]. split; [intros b' E V'; assert (b' = Fin b) by congruence; subst b'; discriminate|]. intros b' E. assert (b' = b) by congruence. subst b'.
    exists I. split; [exact ND|]. split; [exact HIn|]. fold ps. split; [reflexivity|intros; lia].
Qed.
Lemma c97_all : forall G L loc bgc bg g t las los pts t' Y X lats lons background pobs pbg lo hi mp W,
  geo_ok G -> ldclib_ok L -> (forall p q, bgc p q = Ok (bg p q)) ->
  is_grid G t' Y X lats lons g -> is_points G t las los pts -> rect Y X background -> valid_all2 t lats ->
  rect (zlen pobs) (zlen las) pobs -> rect (zlen pobs) (zlen las) pbg -> (0 <= lo)%Qc -> (lo <= hi)%Qc -> (hi <= 1)%Qc ->
  (forall i j la lo' p1, get2 lats i j = Ok la -> get2 lons i j = Ok lo' -> grid_get g i j = Ok p1 ->
     weights_of pts bg p1 (in_reach G t las los loc p1 (position G t la lo')) (W p1)) ->
  exists out, ldc G L (fun p => Ok (loc p)) bgc g background pts pobs pbg (Fin lo) (Fin hi) mp = Ok out /\ rect Y X out /\
  forall i j la lo' p1, get2 lats i j = Ok la -> get2 lons i j = Ok lo' -> grid_get g i j = Ok p1 ->
  exists v, get2 out i j = Ok v /\
  (forall b, get2 background i j = Ok b -> is_valid b = false -> v = b) /\
  (forall b, get2 background i j = Ok (Fin b) -> exists I, NoDup I /\ (forall k, In k I <-> in_reach G t las los loc p1 (position G t la lo') k) /\
     ldc_value L lo hi mp (pairs_of pobs pbg (W p1) I) b v).
Proof.
  intros G L loc bgc bg g t las los pts t' Y X lats lons background pobs pbg lo hi mp W HG HL HB HGr HPt HR HV HO HF H1 H2 H3 HW.
  pose proof (is_grid_pos _ _ _ _ _ _ _ HGr) as [HY HX]. destruct (is_grid_rect _ _ _ _ _ _ _ HGr) as [R1 R2].
  unfold ldc. destruct (rect_row0 _ _ _ HY HR) as (r0 & Hr0 & Lr0). rewrite Hr0. cbn [bind]. rewrite Lr0.
  rewrite (proj1 HF), (proj1 HR), Z.eqb_refl. cbn [negb]. rewrite for2_init_tab by lia.
  assert (GP : forall y x, 0 <= y < Y -> 0 <= x < X -> exists p, grid_get g y x = Ok p).
  { intros y x Hy Hx. destruct (c35_all _ _ _ _ _ _ _ HGr) as (_ & _ & _ & P' & _ & _ & _ & HGp).
    destruct (HGp (y * X + x) y x) as (p' & _ & K2 & _); [nia|rewrite (get_indices_ok _ _ _ _ _ _ _ _ HGr) by nia; rewrite lin_div, lin_mod by lia; reflexivity|]. eauto. }
  destruct (tab2_total Y X (ldc_cell G L (fun p => Ok (loc p)) bgc g background pts pobs pbg (Fin lo) (Fin hi) mp)
    (fun i j v => forall la lo' p1, get2 lats i j = Ok la -> get2 lons i j = Ok lo' -> grid_get g i j = Ok p1 ->
      (forall b, get2 background i j = Ok b -> is_valid b = false -> v = b) /\
      (forall b, get2 background i j = Ok (Fin b) -> exists I, NoDup I /\ (forall k, In k I <-> in_reach G t las los loc p1 (position G t la lo') k) /\
        ldc_value L lo hi mp (pairs_of pobs pbg (W p1) I) b v))) as (out & Ho & HRo & K); [lia|lia| |].
  { intros i j Hi Hj. destruct (rect_get2 _ _ _ i j R1 Hi Hj) as [la Hla]. destruct (rect_get2 _ _ _ i j R2 Hi Hj) as [lo' Hlo].
    destruct (GP i j Hi Hj) as [p1 Hp1].
    destruct (cell_ok G L loc bgc bg g t las los pts t' Y X lats lons background pobs pbg lo hi mp i j p1 la lo' (W p1)) as (v & Hv & S); try assumption;
      [eapply valid_get2; eauto|eapply HW; eassumption|].
    exists v. split; [exact Hv|]. intros la' lo2 p1' A B C. assert (la' = la) by congruence. assert (lo2 = lo') by congruence. assert (p1' = p1) by congruence. subst. exact S. }
  exists out. rewrite Ho. split; [reflexivity|]. split; [exact HRo|]. intros i j la lo' p1 Hla Hlo Hp1. destruct (get2_range _ _ _ _ _ _ R1 Hla) as [Hi Hj].
  destruct (K i j Hi Hj) as (v & Hv & _ & S). exists v. split; [exact Hv|]. eapply S; eassumption.
Qed.
Lemma c97_errors : forall G L loc bgc g background pts pobs pbg lo hi mp, background <> [] -> pobs <> [] -> pbg <> [] -> zlen pobs <> zlen pbg ->
  ldc G L loc bgc g background pts pobs pbg lo hi mp = Throw InvalidArgument.
Proof.
  intros G L loc bgc g [|r bgr] pts [|o pobs] [|f pbg] lo hi mp A B C H; try contradiction. unfold ldc. change (znth (r :: bgr) 0) with (Ok r). cbn [bind].
  rewrite (proj2 (Z.eqb_neq _ _) H). reflexivity.
Qed.

(** ** no change where observations and backgrounds agree *)
Lemma curve_inverse V K x q m : qsorted V -> increasing K -> zlen V = zlen K -> V <> [] -> (qnth V 0 <= x)%Qc -> (x < qnth V (zlen V - 1))%Qc ->
  interp_at V K x q -> interp_at K V q m -> m = x.
Proof.
  intros SV IK EL NE X0 X1 (a & b & B1 & R1) (a2 & b2 & B2 & R2). pose proof (zlen_pos' _ NE) as ZP.
  assert (LA : a < zlen V). { destruct B1 as (? & ? & HB). destruct (Z.lt_ge_cases a (zlen V)); [assumption|]. destruct (HB (zlen V - 1)) as (C1 & _ & _); [lia|]. specialize (C1 ltac:(lia)). exfalso. qlra. }
  assert (LB : b < zlen V). { destruct B1 as (? & ? & HB). destruct (Z.lt_ge_cases b (zlen V)); [assumption|]. destruct (HB (zlen V - 1)) as (C1 & C2 & _); [lia|].
    destruct (Z.lt_ge_cases (zlen V - 1) a); [specialize (C1 ltac:(lia)); exfalso; qlra|]. specialize (C2 ltac:(lia)). exfalso. rewrite C2 in X1. qlra. }
  assert (GB : 0 < b). { destruct B1 as (? & ? & HB). destruct (Z.lt_ge_cases 0 b); [assumption|]. destruct (HB 0) as (_ & _ & C3); [lia|]. specialize (C3 ltac:(lia)). exfalso. qlra. }
  destruct B1 as (HAB & HBN & HB). 
  assert (LT : forall i j, 0 <= i < zlen K -> 0 <= j < zlen K -> (qnth K i < qnth K j)%Qc -> i < j).
  { intros i j Hi Hj H. destruct (Z.lt_ge_cases i j); [assumption|]. exfalso. assert (qnth K j <= qnth K i)%Qc by (apply qnth_mono; [apply increasing_sorted; exact IK|lia|lia]). qlra. }
  destruct (Z.eq_dec a b) as [E|E].
  - (* strictly between two values *)
    subst b. destruct R1 as (_ & _ & _ & _ & _ & _ & R1). specialize (R1 eq_refl GB LA).
    destruct (HB (a - 1)) as (C1 & _ & _); [lia|]. specialize (C1 ltac:(lia)). destruct (HB a) as (_ & _ & C3); [lia|]. specialize (C3 ltac:(lia)).
    pose proof (frac_bounds _ _ _ C1 C3) as [F1 F2]. set (f := ((x - qnth V (a - 1)) / (qnth V a - qnth V (a - 1)))%Qc) in *.
    assert (EX : x = (qnth V (a - 1) + (qnth V a - qnth V (a - 1)) * f)%Qc).
    { unfold f. rewrite (Qcmult_comm _ (_ / _)), qdiv_mul; [ring|]. apply qdiff_ne. apply (Qclt_trans _ x); assumption. }
    assert (KL : (qnth K (a - 1) < qnth K a)%Qc) by (apply increasing_lt; [exact IK|lia|lia]).
    clearbody f.
    assert (Q1 : (qnth K (a - 1) < q)%Qc) by (rewrite R1; set (u := qnth K (a - 1)) in *; set (v := qnth K a) in *; clearbody u v; clear -KL F1 F2; qnra).
    assert (Q2 : (q < qnth K a)%Qc) by (rewrite R1; set (u := qnth K (a - 1)) in *; set (v := qnth K a) in *; clearbody u v; clear -KL F1 F2; qnra).
    assert (a2 = a /\ b2 = a) as [-> ->].
    { apply (bracket_unique K q); [exact B2|]. split; [lia|]. split; [lia|]. intros j Hj. split; [|split; [lia|]]; intros Hja.
      - apply (Qcle_lt_trans _ (qnth K (a - 1))); [|exact Q1]. apply qnth_mono; [apply increasing_sorted; exact IK|lia|lia].
      - apply (Qclt_le_trans _ (qnth K a)); [exact Q2|]. apply qnth_mono; [apply increasing_sorted; exact IK|lia|lia]. }
    destruct R2 as (_ & _ & _ & _ & _ & _ & R2). rewrite (R2 eq_refl GB ltac:(lia)). rewrite EX. f_equal. f_equal.
    rewrite R1. set (u := qnth K (a - 1)) in *. set (v := qnth K a) in *. field. intros Z. clear -KL Z. qlra.
  - (* flat part *)
    assert (FL : forall j, a <= j < b -> qnth V j = x) by (intros j Hj; apply (HB j); lia).
    assert (QB : (qnth K a <= q <= qnth K (b - 1))%Qc).
    { destruct R1 as (_ & _ & _ & R4 & _ & R6 & _). assert (qnth K a <= qnth K (b - 1))%Qc by (apply qnth_mono; [apply increasing_sorted; exact IK|lia|lia]).
      destruct (Z.eq_dec a 0); [rewrite R4 by lia; split; [assumption|apply Qcle_refl]|]. rewrite R6 by lia. apply qmid_between; try assumption; apply Qcle_refl. }
    assert (BW : (x <= m <= x)%Qc).
    { eapply interp_rule_between; [exact B2|exact R2|lia|]. intros j Hj Hj2 Hj3. destruct B2 as (HA2 & HB2 & HC2).
      assert (a <= j < b); [|rewrite FL by lia; split; apply Qcle_refl].
      destruct (Z.lt_ge_cases a2 b2) as [G|G].
      - specialize (Hj3 G). destruct (HC2 j Hj) as (_ & C2 & _). specialize (C2 ltac:(lia)). rewrite <- C2 in QB. destruct QB as [QB1 QB2].
        split; apply Z.nlt_ge || apply Z.lt_le_incl || idtac.
        + intros Hlt. pose proof (increasing_lt K j a IK ltac:(lia) ltac:(lia)). qlra.
        + destruct (Z.lt_ge_cases j b); [assumption|]. pose proof (increasing_lt K (b - 1) j IK ltac:(lia) ltac:(lia)). exfalso. qlra.
      - assert (b2 = a2) by lia. subst b2. 
        assert (a < a2). { destruct (Z.lt_ge_cases a a2); [assumption|]. destruct (HC2 a) as (_ & _ & C3); [lia|]. specialize (C3 ltac:(lia)). exfalso. qlra. }
        assert (a2 <= b - 1). { destruct (Z.le_gt_cases a2 (b - 1)); [assumption|]. destruct (HC2 (b - 1)) as (C1 & _ & _); [lia|]. specialize (C1 ltac:(lia)). exfalso. qlra. }
        lia. }
    apply Qcle_antisym; apply BW.
Qed.
Lemma same_pairs pobs w I : map p_obs (pairs_of pobs pobs w I) = map p_bg (pairs_of pobs pobs w I).
Proof.
  unfold pairs_of. rewrite !concat_map, !map_map. f_equal. apply map_ext. intros k. rewrite !concat_map, !map_map. f_equal. apply map_ext. intros t.
  unfold pair_of. destruct (get2 pobs t k) as [[| | |o]| | |]; try reflexivity. destruct (qleb 0 o && qleb 0 o); reflexivity.
Qed.
Lemma c97_identity : forall G L loc bgc bg g t las los pts t' Y X lats lons background pobs lo hi mp W,
  geo_ok G -> ldclib_ok L -> (forall p q, bgc p q = Ok (bg p q)) ->
  is_grid G t' Y X lats lons g -> is_points G t las los pts -> rect Y X background -> valid_all2 t lats ->
  rect (zlen pobs) (zlen las) pobs -> (0 <= lo)%Qc -> (lo < hi)%Qc -> (hi <= 1)%Qc ->
  (forall i j la lo' p1, get2 lats i j = Ok la -> get2 lons i j = Ok lo' -> grid_get g i j = Ok p1 ->
     weights_of pts bg p1 (in_reach G t las los loc p1 (position G t la lo')) (W p1)) ->
  exists out, ldc G L (fun p => Ok (loc p)) bgc g background pts pobs pobs (Fin lo) (Fin hi) mp = Ok out /\ rect Y X out /\
  forall i j b, get2 background i j = Ok (Fin b) -> (small <= b)%Qc -> get2 out i j = Ok (Fin b).
Proof.
  intros G L loc bgc bg g t las los pts t' Y X lats lons background pobs lo hi mp W HG HL HB HGr HPt HR HV HO H1 H2 H3 HW.
  destruct (c97_all G L loc bgc bg g t las los pts t' Y X lats lons background pobs pobs lo hi mp W) as (out & Ho & HRo & K); try assumption; [qlra|].
  exists out. split; [exact Ho|]. split; [exact HRo|]. intros i j b Hb Sb. destruct (get2_range _ _ _ _ _ _ HR Hb) as [Hi Hj].
  destruct (is_grid_rect _ _ _ _ _ _ _ HGr) as [R1 R2].
  destruct (rect_get2 _ _ _ i j R1 Hi Hj) as [la Hla]. destruct (rect_get2 _ _ _ i j R2 Hi Hj) as [lo' Hlo].
  assert (GP : exists p, grid_get g i j = Ok p).
  { destruct (c35_all _ _ _ _ _ _ _ HGr) as (_ & _ & _ & P' & _ & _ & _ & HGp).
    destruct (HGp (i * X + j) i j) as (p' & _ & K2 & _); [nia|rewrite (get_indices_ok _ _ _ _ _ _ _ _ HGr) by nia; rewrite lin_div, lin_mod by lia; reflexivity|]. eauto. }
  destruct GP as [p1 Hp1]. destruct (K i j la lo' p1 Hla Hlo Hp1) as (v & Hv & _ & S). rewrite Hv. f_equal.
  destruct (S b Hb) as (I & ND & HIn & V1 & V2). set (ps := pairs_of pobs pobs (W p1) I) in *.
  destruct (Z.lt_ge_cases (zlen ps) mp) as [C|C]; [apply V1; exact C|].
  destruct (V2 C) as (R & F & e & r & M1 & M2 & Ee & He & -> & (C1 & C2 & C3 & C4) & _ & SAME). f_equal.
  assert (R = F) by (apply SAME; apply same_pairs). subst F.
  assert (HP : forall p, In p ps -> (0 <= fst (fst p) /\ 0 < snd p)%Qc).
  { intros p Hp. destruct (pairs_nonneg _ _ _ _ _ Hp) as ((A & B) & k & Hk & Ew). split; [exact A|]. rewrite Ew. apply HIn in Hk.
    assert (Rk : 0 <= k < zlen las) by (destruct Hk as (q & (la0 & lo0 & A0 & _) & _); apply (znth_range _ _ _ A0)).
    destruct (pget_ok _ _ _ _ _ k HPt Rk) as [pk Hpk]. eapply HW; eassumption. }
  assert (NR : forall p, In p (map p_obs ps) -> (0 <= fst p)%Qc) by (intros p Hp; apply in_map_iff in Hp as (q & <- & Hq); apply HP; exact Hq).
  assert (WR : forall p, In p R -> (0 < snd p)%Qc).
  { intros p Hp. eapply middle_in in Hp; [|exact M1]. apply in_map_iff in Hp as (q & <- & Hq). apply (HP q Hq). }
  assert (TS : (tiny <= small)%Qc) by (vm_compute; discriminate). pose proof tiny_pos as TP.
  assert (TB : (tiny <= b)%Qc) by (apply (Qcle_trans _ small); assumption).
  assert (BP : (0 < b)%Qc) by (apply (Qclt_le_trans _ tiny); assumption).
  destruct (Qclt_le_dec 0 (top R)) as [T|T].
  - destruct (Qclt_le_dec b (top R)) as [D|D].
    + destruct (C4 TB T D) as (q & m & I1 & I2 & MB & ->). destruct (zlen_curve lo hi R) as [Z1 Z2].
      assert (m = b).
      { apply (curve_inverse (curve_values R) (curve_levels lo hi R) b q m); [| | | | | |exact I1|exact I2].
        - exact (values_sorted _ _ _ _ M1 NR).
        - apply levels_increasing; assumption.
        - lia.
        - discriminate.
        - change (qnth (curve_values R) 0) with 0%Qc. qlra.
        - rewrite Z1. replace (zlen R + 1 - 1) with (zlen R) by lia. exact D. }
      subst m. ring.
    + rewrite (C3 TB T D). ring.
  - destruct (C2 TB T) as [_ C5]. apply C5; [|exact Sb].
    assert (0 <= top R)%Qc by (pose proof (zlen_nonneg R); apply (value_range lo hi (map p_obs ps) R (zlen R)); [exact M1|exact NR|lia]).
    assert (top R = 0%Qc) as -> by (apply Qcle_antisym; assumption). rewrite Qcmult_0_r. qlra.
Qed.

(** ** an instance of the external code *)
Lemma pins_perm e : forall l, Permutation (pins e l) (e :: l).
Proof.
  induction l as [|x l IH]; cbn [pins]; [apply Permutation_refl|]. destruct (vltb (fst x) (fst e)); [|apply Permutation_refl].
  rewrite IH. apply perm_swap.
Qed.
Lemma LD0_ok : ldclib_ok LD0.
Proof.
  split.
  - intros q Hq. unfold LD0. cbn [e_exp]. unfold fz. cbn [vsub vneg vadd]. unfold vdiv.
    assert (P : (0 < qz 1 + - q)%Qc) by (rewrite qz_1; qlra).
    destruct (qeqb_spec (qz 1 + - q) 0) as [E|N]; [rewrite E in P; exfalso; qlra|]. eexists. split; [reflexivity|].
    pose proof (qinv_pos _ P) as IP. unfold Qcdiv. rewrite qz_1 in *. rewrite Qcmult_1_l.
    assert (E : ((1 + - q) * / (1 + - q) = 1)%Qc) by (field; exact N). set (i := (/ (1 + - q))%Qc) in *. clearbody i. split; [qlra|qnra].
  - intros l. cbn [LD0 e_sort]. induction l as [|x l IH]; cbn [fold_right]; [apply Permutation_refl|]. rewrite pins_perm. constructor. exact IH.
  - intros l. cbn [LD0 e_sort]. induction l as [|x l IH]; intros H; cbn [fold_right]; [constructor|].
    assert (IH' := IH (fun e He => H e (or_intror He))).
    assert (NN : forall e, In e (fold_right pins [] l) -> fst e <> NaN).
    { intros e He. apply H. right. eapply Permutation_in; [|exact He]. clear. induction l as [|x l IH]; cbn [fold_right]; [apply Permutation_refl|]. rewrite pins_perm. constructor. exact IH. }
    assert (Nx : fst x <> NaN) by (apply H; left; reflexivity). clear IH H.
    induction (fold_right pins [] l) as [|y s IHs]; cbn [pins]; [repeat constructor|].
    inversion IH' as [|? ? S F]; subst.
    destruct (vltb (fst y) (fst x)) eqn:E.
    + constructor; [apply IHs; [exact S|intros; apply NN; right; assumption]|]. rewrite Forall_forall in *. intros z Hz.
      apply (Permutation_in _ (pins_perm x s)) in Hz. destruct Hz as [<- | Hz]; [|apply F; exact Hz].
      unfold vltb in E. clear -E Nx. destruct (fst y) as [| | |a], (fst x) as [| | |b]; try reflexivity; try discriminate; try contradiction.
      rewrite P_Stat.vleb_Fin. destruct (qltb_spec a b); [|discriminate]. destruct (qleb_spec a b); [reflexivity|exfalso; qlra].
    + assert (LE : vleb (fst x) (fst y) = true).
      { assert (Ny : fst y <> NaN) by (apply NN; left; reflexivity). clear -E Nx Ny. destruct (fst y) as [| | |a], (fst x) as [| | |b]; try reflexivity; try discriminate; try contradiction.
        rewrite P_Stat.vleb_Fin. change (vltb (Fin a) (Fin b)) with (qltb a b) in E. destruct (qltb_spec a b); [discriminate|]. destruct (qleb_spec b a); [reflexivity|exfalso; qlra]. }
      constructor; [exact IH'|]. constructor; [exact LE|]. rewrite Forall_forall in *. intros z Hz. specialize (F z Hz).
      assert (Nz : fst z <> NaN) by (apply NN; right; assumption). assert (Ny : fst y <> NaN) by (apply NN; left; reflexivity).
      clear -LE F Nx Ny Nz. destruct (fst x) as [| | |a], (fst y) as [| | |b], (fst z) as [| | |c]; try reflexivity; try discriminate; try contradiction.
      rewrite P_Stat.vleb_Fin in *. destruct (qleb_spec a b), (qleb_spec b c), (qleb_spec a c); try discriminate; try reflexivity. exfalso; qlra.
Qed.

(** ** examples *)
Definition near_full (p q : point) : Qc := if veqb (p_x p) (p_x q) then 1%Qc else Q2Qc (1 # 2).
Definition near_weight (pts : points) (p : point) (k : Z) : Qc := match points_get pts k with Ok q => near_full p q | _ => 1%Qc end.
Lemma near_weights pts p reach : weights_of pts (fun p q => Fin (near_full p q)) p reach (near_weight pts p).
Proof.
  intros k pk _ H. unfold near_weight. rewrite H. split; [reflexivity|]. unfold near_full. destruct (veqb (p_x p) (p_x pk)); reflexivity.
Qed.
Lemma middle_nil lo hi m : middle lo hi [] m -> m = [].
Proof.
  intros (a & c & P & _). apply Permutation_sym, Permutation_nil in P. apply app_eq_nil in P as [_ P]. apply app_eq_nil in P as [P _]. exact P.
Qed.
Lemma c98_partial : forall G L loc bgc bg g t las los pts t' Y X lats lons background pobs pbg lo hi mp W,
  geo_ok G -> ldclib_ok L -> (forall p q, bgc p q = Ok (bg p q)) ->
  is_grid G t' Y X lats lons g -> is_points G t las los pts -> rect Y X background -> valid_all2 t lats ->
  rect (zlen pobs) (zlen las) pobs -> rect (zlen pobs) (zlen las) pbg -> (0 <= lo)%Qc -> (lo <= hi)%Qc -> (hi <= 1)%Qc ->
  (forall i j la lo' p1, get2 lats i j = Ok la -> get2 lons i j = Ok lo' -> grid_get g i j = Ok p1 ->
     weights_of pts bg p1 (in_reach G t las los loc p1 (position G t la lo')) (W p1)) ->
  exists out, ldc G L (fun p => Ok (loc p)) bgc g background pts pobs pbg (Fin lo) (Fin hi) mp = Ok out /\ rect Y X out /\
  forall i j la lo' p1 b, get2 lats i j = Ok la -> get2 lons i j = Ok lo' -> grid_get g i j = Ok p1 -> get2 background i j = Ok (Fin b) ->
  (forall k, ~ in_reach G t las los loc p1 (position G t la lo') k) ->
  (0 < mp \/ (small <= b)%Qc -> get2 out i j = Ok (Fin b)) /\ (mp <= 0 -> (b < small)%Qc -> get2 out i j = Ok (Fin 0%Qc)).
Proof.
  intros G L loc bgc bg g t las los pts t' Y X lats lons background pobs pbg lo hi mp W HG HL HB HGr HPt HR HV HO HF H1 H2 H3 HW.
  destruct (c97_all G L loc bgc bg g t las los pts t' Y X lats lons background pobs pbg lo hi mp W) as (out & Ho & HRo & K); try assumption.
  exists out. split; [exact Ho|]. split; [exact HRo|]. intros i j la lo' p1 b Hla Hlo Hp1 Hb HN.
  destruct (K i j la lo' p1 Hla Hlo Hp1) as (v & Hv & _ & S). rewrite Hv. destruct (S b Hb) as (I & _ & HIn & V1 & V2).
  assert (I = []). { destruct I as [|k I]; [reflexivity|]. exfalso. apply (HN k). apply HIn. left. reflexivity. } subst I.
  change (pairs_of pobs pbg (W p1) []) with (@nil (Qc * Qc * Qc)) in *. change (zlen []) with 0 in *.
  destruct (Z.lt_ge_cases 0 mp) as [C|C]; [rewrite (V1 C); split; [reflexivity|lia]|].
  destruct (V2 ltac:(lia)) as (R & F & e & r & M1 & M2 & Ee & He & -> & (C1 & C2 & _ & _) & _).
  apply middle_nil in M1. apply middle_nil in M2. subst R F. change (top []) with 0%Qc in *. rewrite Qcmult_0_r in C2.
  assert (TS : (tiny <= small)%Qc) by (vm_compute; discriminate). pose proof tiny_pos as TP.
  split.
  - intros [HM | HS]; [lia|]. do 2 f_equal. apply (C2 (Qcle_trans _ _ _ TS HS)); [apply Qcle_refl| |exact HS].
    apply Qclt_le_weak. apply (Qclt_le_trans _ tiny); [exact TP|]. apply (Qcle_trans _ small); assumption.
  - intros _ HS. do 2 f_equal. destruct (Qclt_le_dec b tiny) as [D|D]; [apply C1; exact D|]. apply (C2 D); [apply Qcle_refl|]. right. exact HS.
Qed.
Definition grid13 : grid :=
  match mk_grid G0 [[fz 0; fz 0; fz 0]] [[fz 0; fz 1; fz 50]] [] [] Cartesian with Ok g => g | _ => grid22 end.
Lemma grid13_ok : is_grid G0 Cartesian 1 3 [[qz 0; qz 0; qz 0]] [[qz 0; qz 1; qz 50]] grid13.
Proof. grid_now. Qed.
Lemma c98_refuted : exists G L loc bgc bg g las los pts lats lons background pobs pbg W p1 out,
  geo_ok G /\ ldclib_ok L /\ (forall p q, bgc p q = Ok (bg p q)) /\ is_grid G Cartesian 1 3 lats lons g /\ is_points G Cartesian las los pts /\
  (forall p reach, weights_of pts bg p reach (W p)) /\ grid_get g 0 2 = Ok p1 /\
  (forall k, ~ in_reach G Cartesian las los loc p1 (position G Cartesian (qz 0) (qz 50)) k) /\ get2 lats 0 2 = Ok (qz 0) /\ get2 lons 0 2 = Ok (qz 50) /\
  ldc G L (fun p => Ok (loc p)) bgc g background pts pobs pbg (fz 0) (fz 1) 0 = Ok out /\
  get2 background 0 2 = Ok (fq (1 # 20)) /\ get2 out 0 2 = Ok (fz 0).
Proof.
  exists G0, LD0, (fun _ => fz 10), (fun p q => Ok (Fin (near_full p q))), (fun p q => Fin (near_full p q)), grid13, (zeros [0; 1]), (map qz [0; 1]), (xpts [0; 1]),
    [[qz 0; qz 0; qz 0]], [[qz 0; qz 1; qz 50]], [[fz 1; fz 1; fq (1 # 20)]], [[fz 2; fz 3]], [[fz 1; fz 2]], (near_weight (xpts [0; 1])).
  destruct (grid_get grid13 0 2) as [p1| | |] eqn:E; try discriminate. exists p1. eexists.
  split; [exact geo_ok_G0|]. split; [exact LD0_ok|]. split; [reflexivity|]. split; [exact grid13_ok|]. split; [pts_now|].
  split; [intros; apply near_weights|]. split; [reflexivity|]. split.
  { intros k (q & (la & lo & A & B & ->) & C). assert (k = 0 \/ k = 1) as [-> | ->].
    { pose proof (znth_range _ _ _ A) as Rk. change (zlen (zeros [0; 1])) with 2 in Rk. lia. }
    - cbv -[qz] in A, B. injection A as <-. injection B as <-. destruct C as (_ & C). revert C. vm_compute. intros C; apply C; reflexivity.
    - cbv -[qz] in A, B. injection A as <-. injection B as <-. destruct C as (_ & C). revert C. vm_compute. intros C; apply C; reflexivity. }
  split; [reflexivity|]. split; [reflexivity|]. split; [vm_compute; reflexivity|]. split; [reflexivity|]. vcalc.
Qed.
