(** Proofs for staticcorr_points and smart. *)
From Coq Require Import Permutation.
From Verif Require Import Base QcTac ListLib M_Geo S_Stat S_Geo S_Near M_OI S_OI M_CorrPts S_CorrPts P_Geo P_Neighbours P_Grid P_Points P_Near P_Grd P_OISum P_OI P_OIGrid P_NeighAll.
Local Open Scope Z_scope.

Lemma top_sorted L c m : lib_ok L -> 0 <= m <= zlen c ->
  exists A B, Permutation (A ++ B) c /\ zlen A = m /\
    mapM (fun i => znth (l_sort L c) (zlen (l_sort L c) - 1 - i)) (zrange 0 m) = Ok A /\
    ((forall e, In e c -> fst e <> NaN) -> forall a b, In a A -> In b B -> vleb (fst b) (fst a) = true).
Proof.
  intros HL Hm. pose proof (ok_perm _ HL c) as P. pose proof (ok_sorted _ HL c) as SS.
  set (s := l_sort L c) in *. clearbody s.
  assert (Es : zlen s = zlen c) by (unfold zlen; rewrite (Permutation_length P); reflexivity).
  assert (Lm : zlen (firstn (Z.to_nat m) (rev s)) = m).
  { unfold zlen. rewrite firstn_length, rev_length. unfold zlen in Es, Hm. lia. }
  exists (firstn (Z.to_nat m) (rev s)), (skipn (Z.to_nat m) (rev s)). split; [|split; [|split]].
  - rewrite firstn_skipn. rewrite <- P. symmetry. apply Permutation_rev.
  - exact Lm.
  - apply mapM_rev; lia.
  - intros NN a b Ha Hb. specialize (SS NN). apply In_znth in Ha as [i Hi]. apply In_znth in Hb as [j Hj].
    assert (Ra : znth (rev s) i = Ok a).
    { rewrite <- (firstn_skipn (Z.to_nat m) (rev s)). rewrite znth_app_l; [exact Hi|]. apply znth_range in Hi. lia. }
    assert (Ri : 0 <= i < m) by (apply znth_range in Hi; lia).
    assert (Rb : znth (rev s) (m + j) = Ok b).
    { rewrite <- (firstn_skipn (Z.to_nat m) (rev s)). rewrite znth_app_r by (apply znth_range in Hj; lia). rewrite Lm. rewrite <- Hj. f_equal. lia. }
    assert (Zr : forall k x, znth (rev s) k = Ok x -> znth s (zlen s - 1 - k) = Ok x).
    { intros k x Hx. pose proof (znth_range _ _ _ Hx) as R. unfold zlen in R. rewrite rev_length in R.
      apply znth_Ok in Hx as [_ Hx]. apply znth_Ok. split; [unfold zlen; lia|].
      assert (G : nth_error s (length s - 1 - Z.to_nat k) = Some x).
      { rewrite <- (rev_involutive s), rev_length. rewrite (nth_error_nth' (rev (rev s)) x) by (rewrite !rev_length; lia).
        rewrite rev_nth by (rewrite rev_length; lia). f_equal. rewrite rev_length.
        replace (length s - S (length s - 1 - Z.to_nat k))%nat with (Z.to_nat k) by lia.
        apply nth_error_nth. exact Hx. }
      rewrite <- G. f_equal. unfold zlen. lia. }
    apply Zr in Ra. apply Zr in Rb. apply znth_range in Hj.
    eapply (SS (zlen s - 1 - (m + j)) (zlen s - 1 - i)); eauto; try lia. apply znth_range in Rb. lia.
Qed.

(** ** staticcorr_points *)
Lemma corr_candidates_ok loc0 (r : Z -> val) :
  corr_candidates loc0 (map r loc0) =
  Ok (map (fun i => (r (ix loc0 i), i)) (filter (fun i => vltb (fz 0) (r (ix loc0 i))) (zrange 0 (zlen loc0)))).
Proof.
  unfold corr_candidates.
  assert (K : forall l acc, (forall i, In i l -> 0 <= i < zlen loc0) ->
    foldM (fun acc i => r0 <- znth (map r loc0) i ;; Ok (if vltb (fz 0) r0 then acc ++ [(r0, i)] else acc)) acc l =
    Ok (acc ++ map (fun i => (r (ix loc0 i), i)) (filter (fun i => vltb (fz 0) (r (ix loc0 i))) l))).
  { induction l as [|i l IH]; intros acc Hl; cbn [foldM filter map]; [rewrite app_nil_r; reflexivity|].
    assert (Hi : 0 <= i < zlen loc0) by (apply Hl; left; reflexivity).
    rewrite znth_map, (ix_ok _ _ Hi). cbn [bind].
    destruct (vltb (fz 0) (r (ix loc0 i))); rewrite IH by (intros; apply Hl; right; assumption); [|reflexivity].
    cbn [map]. rewrite <- app_assoc. reflexivity. }
  rewrite K by (intros i Hi; apply in_zrange in Hi; exact Hi). reflexivity.
Qed.
(** filling a row *)
Lemma fill_row n : forall (sel : list (Z * val)) row, zlen row = n -> NoDup (map fst sel) -> (forall e, In e sel -> 0 <= fst e < n) ->
  exists out, foldM (fun row e => zset row (fst e) (snd e)) row sel = Ok out /\ zlen out = n /\
  (forall e, In e sel -> znth out (fst e) = Ok (snd e)) /\ (forall k, 0 <= k < n -> ~ In k (map fst sel) -> znth out k = znth row k).
Proof.
  induction sel as [|e sel IH]; intros row HL ND HR; cbn [foldM].
  { exists row. split; [reflexivity|]. split; [exact HL|]. split; [intros e []|]. auto. }
  assert (He : 0 <= fst e < n) by (apply HR; left; reflexivity).
  inversion ND as [|? ? Hn ND']; subst.
  rewrite zset_Ok by lia. cbn [bind]. set (row' := lset row (Z.to_nat (fst e)) (snd e)).
  destruct (IH row') as (out & Ho & Lo & H1 & H2); [unfold row'; apply zlen_lset|exact ND'|intros; apply HR; right; assumption|].
  exists out. split; [exact Ho|]. split; [exact Lo|]. split.
  - intros x [<-|Hx]; [|apply H1; exact Hx]. rewrite H2 by assumption. unfold row'. rewrite znth_lset by lia. rewrite Z.eqb_refl. reflexivity.
  - intros k Hk Hk'. rewrite H2; [|exact Hk|intros K; apply Hk'; right; exact K]. unfold row'. rewrite znth_lset by lia.
    destruct (Z.eqb_spec k (fst e)) as [E|]; [|reflexivity]. exfalso. apply Hk'. left. symmetry. exact E.
Qed.

Lemma NoDup_app_l {A} (a b : list A) : NoDup (a ++ b) -> NoDup a.
Proof. induction a as [|x a IH]; cbn; intros H; [constructor|]. inversion H; subst. constructor; [|auto]. intros K. apply H2. apply in_or_app. auto. Qed.
Lemma row_ok G L S t blas blos las los pts knots loc rho bg mp y p1 pos : setting G L S t blas blos pts las los knots loc rho bg -> 0 <= mp ->
  bpoint G t blas blos pts y p1 pos ->
  exists row, corr_row G L S pts knots (map (ptk knots) (zrange 0 (zlen las))) mp y = Ok row /\
    corr_row_ok (linked G t las los knots loc bg p1 pos) (zlen las) mp row.
Proof.
  intros [HG HLib (S1 & S2 & S3) HB HP] Hmp [Hp1 (la & lo & Hla & Hlo & ->)].
  pose proof (znth_range _ _ _ Hla) as Ry. set (nS := zlen las).
  destruct (at_get _ _ _ _ _ y HB Ry) as (p & la' & lo' & _ & Hla' & Hlo' & Gla & Glo & V & _).
  assert (la' = la) by congruence. assert (lo' = lo) by congruence. subst la' lo'.
  assert (HT : is_tree G t las los (s_tree knots)) by apply HP.
  destruct (points_search G t las los (s_tree knots) la lo (loc p1) HG HT V) as (I0 & HI & ND & HIn).
  unfold corr_row. rewrite (at_size _ _ _ _ _ HP), Gla, Glo, Hp1. cbn [bind]. rewrite S1. cbn [bind]. rewrite HI. cbn [bind].
  assert (RI : forall k, In k I0 -> 0 <= k < nS).
  { intros k Hk. apply HIn in Hk as (q & Hq & _). eapply point_at_range; eauto. }
  assert (LZ : zlen (init1 nS (fz 0)) = nS) by (unfold init1; rewrite zlen_map, zlen_zrange; pose proof (zlen_nonneg las); lia).
  destruct (zlen I0 =? 0) eqn:E0.
  { apply Z.eqb_eq in E0. apply zlen_0_nil in E0. subst I0. eexists. split; [reflexivity|]. split; [exact LZ|]. exists [].
    split; [constructor|]. split; [intros; rewrite zlen_nil; lia|]. split; [intros k []|]. split; [intros; apply znth_init1; assumption|].
    split; [|intros k c k' c' []]. intros _ k c (q & pk & Hq & C & _). apply (HIn k). exists q. auto. }
  assert (P2 : mapM (fun k => znth (map (ptk knots) (zrange 0 nS)) k) I0 = Ok (map (ptk knots) I0)).
  { apply mapM_ok. intros k Hk. apply znth_pvec. apply RI; exact Hk. }
  rewrite P2. cbn [bind]. rewrite S3. cbn [bind]. rewrite map_map. rewrite (corr_candidates_ok I0 (fun k => bg p1 (ptk knots k))). cbn [bind].
  set (test := fun i : Z => vltb (fz 0) (bg p1 (ptk knots (ix I0 i)))). set (F := filter test (zrange 0 (zlen I0))).
  set (c := map (fun i => (bg p1 (ptk knots (ix I0 i)), i)) F).
  assert (HF : forall i, In i F <-> 0 <= i < zlen I0 /\ test i = true).
  { intros i. unfold F. rewrite filter_In, in_zrange. reflexivity. }
  assert (Hc : forall e, In e c -> In (snd e) F /\ fst e = bg p1 (ptk knots (ix I0 (snd e)))).
  { intros e He. unfold c in He. apply in_map_iff in He as (i & <- & Hi). auto. }
  set (link := linked G t las los knots loc bg p1 (position G t la lo)).
  assert (HU : forall i, In i F -> link (ix I0 i) (bg p1 (ptk knots (ix I0 i)))).
  { intros i Hi. apply HF in Hi as [Hi Ht]. pose proof (ix_In _ _ Hi) as Hk. pose proof (RI _ Hk) as Rk. apply HIn in Hk as (q & Hq & C).
    exists q, (ptk knots (ix I0 i)). repeat split; try assumption. eapply ptk_ok; eauto. }
  assert (HU' : forall k v, link k v -> exists i, In i F /\ ix I0 i = k /\ v = bg p1 (ptk knots k)).
  { intros k v (q & pk & Hq & C & Hpk & <- & Hr).
    assert (Hk : In k I0) by (apply HIn; exists q; auto). destruct (In_ix _ _ Hk) as (i & Hi & Ei). exists i. split; [|split; [exact Ei|unfold ptk; rewrite Hpk; reflexivity]].
    apply HF. split; [exact Hi|]. unfold test. rewrite Ei. unfold ptk. rewrite Hpk. exact Hr. }
  destruct (pick_obs_ok L mp I0 c HLib) as (A & B & P & E & Hle & Hsz).
  { intros e He. apply Hc in He as [He _]. apply HF in He. tauto. }
  { intros e He. apply Hc in He as [He ->]. apply HF in He as [_ Ht]. unfold test in Ht.
    destruct (bg p1 _); [discriminate Ht| | |]; discriminate. }
  rewrite E. cbn [bind].
  assert (HA : forall e, In e A -> In e c) by (intros e He; eapply Permutation_in; [exact P|]; apply in_or_app; auto).
  assert (HBB : forall e, In e c -> In e A \/ In e B) by (intros e He; apply in_app_or; eapply Permutation_in; [symmetry; exact P|exact He]).
  assert (NDs : NoDup (map snd A)).
  { assert (N : NoDup (map snd (A ++ B))).
    { eapply Permutation_NoDup; [apply Permutation_map; symmetry; exact P|]. unfold c. rewrite map_map. cbn [snd]. rewrite map_id.
      apply NoDup_filter. apply NoDup_zrange. }
    rewrite map_app in N. eapply NoDup_app_l; eauto. }
  set (sel := map (fun e : val * Z => (ix I0 (snd e), fst e)) A).
  assert (NDU : NoDup (map fst sel)).
  { unfold sel. rewrite map_map. cbn [fst]. clear -NDs HA Hc HF ND. induction A as [|a A IH]; [constructor|]. cbn in *. inversion NDs as [|? ? Hn ND']; subst.
    constructor; [|apply IH; auto]. rewrite in_map_iff. intros (e & Ee & He). apply Hn. apply in_map_iff. exists e. split; [|exact He].
    apply (ix_inj I0); [exact ND| | |exact Ee].
    - apply HF. apply Hc. apply HA. auto.
    - apply HF. apply Hc. apply HA. auto. }
  destruct (fill_row nS sel (init1 nS (fz 0)) LZ NDU) as (row & Hrow & LR & R1 & R2).
  { intros e He. unfold sel in He. apply in_map_iff in He as (a & <- & Ha). cbn [fst]. apply RI, ix_In. apply HF, Hc, HA. exact Ha. }
  exists row. split; [exact Hrow|]. split; [exact LR|]. exists (map fst sel).
  assert (UA : forall k, In k (map fst sel) <-> exists e, In e A /\ k = ix I0 (snd e)).
  { intros k. unfold sel. rewrite map_map. cbn [fst]. rewrite in_map_iff. split; intros (e & H1 & H2); exists e; auto. }
  split; [exact NDU|]. split; [|split; [|split; [|split]]].
  - intros Hm. unfold sel. rewrite !zlen_map. destruct Hsz as [(_ & -> & H)|[_ H]]; [apply H; exact Hm|lia].
  - intros k Hk. apply UA in Hk as (e & He & ->). destruct (Hc _ (HA _ He)) as [Hin Ef]. eexists. split; [apply HU; exact Hin|].
    rewrite <- Ef. apply (R1 (ix I0 (snd e), fst e)). unfold sel. apply in_map_iff. exists e. auto.
  - intros k Hk Hn. rewrite R2 by assumption. apply znth_init1. exact Hk.
  - intros Hm k v Hk. unfold sel in Hm. rewrite !zlen_map in Hm. apply HU' in Hk as (i & Hi & <- & _). apply UA.
    exists (bg p1 (ptk knots (ix I0 i)), i). split; [|reflexivity].
    assert (Hin : In (bg p1 (ptk knots (ix I0 i)), i) c) by (unfold c; apply in_map_iff; exists i; auto).
    destruct Hsz as [(_ & -> & _)|[H1 H2]]; [exact Hin|]. destruct Hm; lia.
  - intros k v k' v' Hk Hv Hv' Hn. apply UA in Hk as (e & He & ->). apply HU' in Hv' as (i & Hi & <- & ->). apply HU' in Hv as (i' & Hi' & Ei' & ->).
    assert (Hin : In (bg p1 (ptk knots (ix I0 i)), i) c) by (unfold c; apply in_map_iff; exists i; auto).
    destruct (HBB _ Hin) as [Ha|Hb'].
    + exfalso. apply Hn. apply UA. eexists. split; [exact Ha|reflexivity].
    + specialize (Hle _ _ He Hb'). cbn [fst] in Hle. destruct (Hc _ (HA _ He)) as [_ Ef]. rewrite Ef in Hle. exact Hle.
Qed.
Lemma c95_all : forall G L S t blas blos las los pts knots loc rho bg mp, setting G L S t blas blos pts las los knots loc rho bg -> 0 <= mp ->
  exists out, staticcorr_points G L S pts knots mp = Ok out /\ zlen out = zlen blas /\
  forall y p1 pos, bpoint G t blas blos pts y p1 pos ->
  exists row, znth out y = Ok row /\ corr_row_ok (linked G t las los knots loc bg p1 pos) (zlen las) mp row.
Proof.
  intros G L S t blas blos las los pts knots loc rho bg mp HS Hmp. pose proof HS as [HG HLib _ HB HP].
  assert (K : forall y, 0 <= y < zlen blas -> exists p1 pos row, bpoint G t blas blos pts y p1 pos /\
    corr_row G L S pts knots (map (ptk knots) (zrange 0 (zlen las))) mp y = Ok row /\
    corr_row_ok (linked G t las los knots loc bg p1 pos) (zlen las) mp row).
  { intros y Hy. destruct (at_get _ _ _ _ _ y HB Hy) as (p & la & lo & Hp & _ & _ & _ & _ & _ & HA).
    assert (Hb : bpoint G t blas blos pts y p (position G t la lo)) by (split; assumption).
    destruct (row_ok G L S t blas blos las los pts knots loc rho bg mp y _ _ HS Hmp Hb) as (row & H1 & H2). exists p, (position G t la lo), row. auto. }
  unfold staticcorr_points. rewrite (proj2 (Z.ltb_ge mp 0)) by lia. rewrite (at_type _ _ _ _ _ HB), (at_type _ _ _ _ _ HP).
  replace (negb _) with false by (destruct t; reflexivity).
  rewrite (at_size _ _ _ _ _ HP), (at_size _ _ _ _ _ HB), (pvec_ok _ _ _ _ _ HP). cbn [bind].
  destruct (mapM_exists (corr_row G L S pts knots (map (ptk knots) (zrange 0 (zlen las))) mp) (zrange 0 (zlen blas))) as [out Ho].
  { intros y Hy. apply in_zrange in Hy. destruct (K y Hy) as (_ & _ & row & _ & H & _). eauto. }
  exists out. split; [rewrite Ho; reflexivity|]. apply mapM_inv in Ho as [HL HO]. rewrite zlen_zrange in HL. pose proof (zlen_nonneg blas).
  split; [lia|]. intros y p1 pos Hb. pose proof Hb as [_ (la & lo & Hla & _)]. apply znth_range in Hla.
  destruct (row_ok G L S t blas blos las los pts knots loc rho bg mp y _ _ HS Hmp Hb) as (row & H1 & H2).
  destruct (HO y y) as (row' & Hr & Hm); [rewrite znth_zrange by lia; f_equal; lia|]. exists row. split; [congruence|exact H2].
Qed.
Lemma c95_errors : forall G L S pts knots mp, mp < 0 \/ points_type pts <> points_type knots ->
  staticcorr_points G L S pts knots mp = Throw InvalidArgument.
Proof.
  intros G L S pts knots mp H. unfold staticcorr_points. destruct (Z.ltb_spec mp 0); [reflexivity|].
  destruct (points_type pts), (points_type knots); try reflexivity; exfalso; destruct H; try lia; congruence.
Qed.

(** ** smart *)
Lemma sum_values (iv : vec2) : forall (l : list (Z * Z)) vs, Forall2 (fun c x => get2 iv (fst c) (snd c) = Ok x) l vs ->
  forall s n, foldM (fun '(sum, count) c => v <- get2 iv (fst c) (snd c) ;; Ok (vadd sum v, count + 1)) (s, n) l
    = Ok (fold_left vadd vs s, n + zlen l).
Proof.
  induction 1 as [|c x l vs H HF IH]; intros s n; cbn [foldM fold_left].
  { rewrite zlen_nil, Z.add_0_r. reflexivity. }
  rewrite H. cbn [bind]. rewrite IH, zlen_cons. do 2 f_equal. lia.
Qed.
Lemma sum_nan vs : forall s, (s = NaN \/ In NaN vs) -> fold_left vadd vs s = NaN.
Proof.
  induction vs as [|x vs IH]; intros s H; cbn; [destruct H as [H|[]]; exact H|].
  apply IH. destruct H as [-> |[-> |H]]; [left; reflexivity|left; destruct s; reflexivity|right; exact H].
Qed.
Lemma sum_fin l : forall s, fold_left vadd (map Fin l) (Fin s) = Fin (s + qsum l)%Qc.
Proof.
  induction l as [|x l IH]; intros s; cbn; [f_equal; ring|]. rewrite IH. f_equal. ring.
Qed.
Lemma foldM_ext_in {A B} (f g : A -> B -> res A) l : (forall a b, In b l -> f a b = g a b) -> forall a, foldM f a l = foldM g a l.
Proof.
  induction l as [|b l IH]; intros H a; cbn; [reflexivity|]. rewrite H by (left; reflexivity). destruct (g a b); cbn; try reflexivity.
  apply IH. intros. apply H. right. assumption.
Qed.
Lemma foldM_mapM {A B C} (h : C -> res B) (f : A -> B -> res A) l : forall bs a, mapM h l = Ok bs -> foldM (fun a c => b <- h c ;; f a b) a l = foldM f a bs.
Proof.
  induction l as [|c l IH]; intros bs a H; cbn in *; [injection H as <-; reflexivity|].
  apply bind_Ok in H as (b & Hb & H). apply bind_Ok in H as (r & Hr & H). injection H as <-. rewrite Hb. cbn.
  destruct (f a b); cbn; try reflexivity. apply IH. exact Hr.
Qed.
Definition icell (I : list (Z * Z)) (i : Z) : Z * Z := match znth I i with Ok c => c | _ => (0, 0) end.
Lemma icell_ok I i : 0 <= i < zlen I -> znth I i = Ok (icell I i).
Proof. intros H. destruct (znth_some I i H) as [c Hc]. unfold icell. rewrite Hc. reflexivity. Qed.
Lemma icell_in I i : 0 <= i < zlen I -> In (icell I i) I.
Proof. intros H. eapply znth_In. apply icell_ok. exact H. Qed.
Lemma icell_inj I i j : NoDup I -> 0 <= i < zlen I -> 0 <= j < zlen I -> icell I i = icell I j -> i = j.
Proof.
  intros ND Hi Hj E. pose proof (icell_ok I i Hi) as A. pose proof (icell_ok I j Hj) as B. rewrite E in A.
  apply znth_Ok in A as [_ A]. apply znth_Ok in B as [_ B].
  pose proof (proj1 (NoDup_nth_error I) ND (Z.to_nat i) (Z.to_nat j)) as K. enough (Z.to_nat i = Z.to_nat j) by lia.
  apply K; [|congruence]. unfold zlen in Hi. lia.
Qed.
Lemma smart_cell_ok G L loc corr rho ig og t Y X lats lons t' Y' X' lats' lons' iv num i j p1 la lo :
  geo_ok G -> lib_ok L -> (forall p q, corr p q = Ok (rho p q)) ->
  is_grid G t Y X lats lons ig -> is_grid G t' Y' X' lats' lons' og -> rect Y X iv ->
  get2 lats' i j = Ok la -> get2 lons' i j = Ok lo -> valid_loc t la -> grid_get og i j = Ok p1 ->
  exists v, smart_cell G L (fun p => Ok (loc p)) corr ig og iv num i j = Ok v /\
    smart_value (neighbour_cell G t lats lons ig loc rho p1 (position G t la lo)) iv num v.
Proof.
  intros HG HLib HC HI HO HR Hla Hlo V Hp1.
  pose proof (is_grid_pos _ _ _ _ _ _ _ HI) as [HY HX].
  pose proof (grid_inv _ _ _ _ _ _ _ HO) as (E1 & E2 & _).
  unfold smart_cell. rewrite Hp1. cbn [bind]. rewrite E1, E2. rewrite (P_NeighAll.get2_map lats' Fin i j la Hla), (P_NeighAll.get2_map lons' Fin i j lo Hlo). cbn [bind].
  destruct (grid_search G t Y X lats lons ig la lo (loc p1) HG HI V) as (I & HIe & ND & RI & HIn). rewrite HIe. cbn [bind].
  destruct (grid_points _ _ _ _ _ _ _ HI) as (P & _ & _ & _ & HS & _).
  assert (GP : forall y x, 0 <= y < Y -> 0 <= x < X -> exists p, grid_get ig y x = Ok p).
  { intros y x Hy Hx. destruct (c35_all _ _ _ _ _ _ _ HI) as (_ & _ & _ & P' & _ & _ & _ & HGp).
    destruct (HGp (y * X + x) y x) as (p' & _ & H2 & _); [nia|rewrite (get_indices_ok _ _ _ _ _ _ _ _ HI) by nia; rewrite lin_div, lin_mod by lia; reflexivity|]. eauto. }
  set (pt := fun c : Z * Z => match grid_get ig (fst c) (snd c) with Ok p => p | _ => dflt end).
  assert (PT : forall c, In c I -> grid_get ig (fst c) (snd c) = Ok (pt c)).
  { intros [y x] Hc. destruct (RI _ _ Hc) as [Hy Hx]. destruct (GP y x Hy Hx) as [p Hp]. unfold pt. cbn [fst snd]. rewrite Hp. reflexivity. }
  set (near := neighbour_cell G t lats lons ig loc rho p1 (position G t la lo)).
  assert (NE : forall c r, near c r <-> In c I /\ r = rho p1 (pt c)).
  { intros [y x] r. unfold near, neighbour_cell. cbn [fst snd]. split.
    - intros (q & p2 & Hq & HC' & Hp2 & <-). split; [apply HIn; exists q; auto|]. unfold pt. cbn [fst snd]. rewrite Hp2. reflexivity.
    - intros [Hc ->]. pose proof (PT _ Hc) as Hp. apply HIn in Hc as (q & Hq & HC'). exists q, (pt (y, x)). auto. }
  set (c := map (fun s => (rho p1 (pt (icell I s)), s)) (zrange 0 (zlen I))).
  assert (EC : mapM (fun s => '(ii, jj) <- znth I s ;; p2 <- grid_get ig ii jj ;; r <- corr p1 p2 ;; Ok (r, s)) (zrange 0 (zlen I)) = Ok c).
  { apply mapM_ok. intros s Hs. apply in_zrange in Hs. rewrite (icell_ok I s Hs). cbn [bind]. pose proof (PT _ (icell_in I s Hs)) as Hp.
    destruct (icell I s) as [ii jj] eqn:Ec. cbn [fst snd] in Hp. rewrite Hp. cbn [bind]. rewrite HC. reflexivity. }
  rewrite EC. cbn [bind].
  assert (Lc : zlen c = zlen I) by (unfold c; rewrite zlen_map, zlen_zrange; pose proof (zlen_nonneg I); lia).
  pose proof (zlen_nonneg I) as LI0. set (m := Z.max 0 (Z.min num (zlen I))).
  assert (EZ : zrange 0 (Z.min num (zlen I)) = zrange 0 m).
  { unfold m. destruct (Z.leb_spec 0 (Z.min num (zlen I))); [f_equal; lia|]. unfold zrange. f_equal. f_equal. lia. }
  rewrite EZ.
  destruct (top_sorted L c m HLib) as (A & B & P0 & LA & EA & Hle); [lia|].
  assert (HA : forall e, In e A -> In e c) by (intros e He; eapply Permutation_in; [exact P0|]; apply in_or_app; auto).
  assert (HBB : forall e, In e c -> In e A \/ In e B) by (intros e He; apply in_app_or; eapply Permutation_in; [symmetry; exact P0|exact He]).
  assert (Hc : forall e, In e c -> 0 <= snd e < zlen I /\ fst e = rho p1 (pt (icell I (snd e)))).
  { intros e He. unfold c in He. apply in_map_iff in He as (s & <- & Hs). apply in_zrange in Hs. auto. }
  set (U := map (fun e : val * Z => icell I (snd e)) A).
  assert (HUI : forall u, In u U -> In u I).
  { intros u Hu. unfold U in Hu. apply in_map_iff in Hu as (e & <- & He). apply icell_in. apply Hc, HA. exact He. }
  assert (HV : exists vs, Forall2 (fun c x => get2 iv (fst c) (snd c) = Ok x) U vs).
  { assert (Q : forall u, In u U -> exists x, get2 iv (fst u) (snd u) = Ok x).
    { intros [y x] Hu. destruct (RI y x (HUI _ Hu)). eapply rect_get2; eauto. }
    clearbody U. clear -Q. induction U as [|u U IH]; [exists []; constructor|].
    destruct (Q u) as [x Hx]; [left; reflexivity|]. destruct IH as [vs Hvs]; [intros; apply Q; right; assumption|]. exists (x :: vs). constructor; assumption. }
  destruct HV as [vs HV].
  assert (EF : foldM (fun '(sum, count) s => e <- znth (l_sort L c) (zlen (l_sort L c) - 1 - s) ;; '(ii, jj) <- znth I (snd e) ;; v <- get2 iv ii jj ;; Ok (vadd sum v, count + 1)) (fz 0, 0) (zrange 0 m)
     = Ok (fold_left vadd vs (fz 0), zlen U)).
  { rewrite (foldM_ext_in _ (fun a s => e <- znth (l_sort L c) (zlen (l_sort L c) - 1 - s) ;; (let '(sum, count) := a in '(ii, jj) <- znth I (snd e) ;; v <- get2 iv ii jj ;; Ok (vadd sum v, count + 1)))).
    2:{ intros [s0 n0] b _. reflexivity. }
    rewrite (foldM_mapM (fun s => znth (l_sort L c) (zlen (l_sort L c) - 1 - s)) _ _ A _ EA).
    assert (FM : mapM (fun e : val * Z => Ok (icell I (snd e))) A = Ok U) by (unfold U; apply mapM_ok; reflexivity).
    change (zlen U) with (0 + zlen U). rewrite <- (sum_values iv U vs HV).
    rewrite <- (foldM_mapM (fun e : val * Z => Ok (icell I (snd e))) _ A U _ FM).
    apply foldM_ext_in. intros [s0 n0] e He. cbn [bind]. rewrite (icell_ok I (snd e)) by (apply Hc, HA; exact He). cbn [bind].
    destruct (icell I (snd e)) as [ii jj]. reflexivity. }
  match goal with |- exists v, (bind ?X _) = _ /\ _ => replace X with (Ok (fold_left vadd vs (fz 0), zlen U)) by (symmetry; exact EF) end.
  cbn [bind]. eexists. split; [reflexivity|].
  assert (NDs : NoDup (map snd A)).
  { assert (N : NoDup (map snd (A ++ B))).
    { eapply Permutation_NoDup; [apply Permutation_map; symmetry; exact P0|]. unfold c. rewrite map_map. cbn [snd]. rewrite map_id. apply NoDup_zrange. }
    rewrite map_app in N. eapply NoDup_app_l; eauto. }
  assert (LU : zlen U = m) by (unfold U; rewrite zlen_map; exact LA).
  assert (LV : zlen vs = zlen U) by (symmetry; clear -HV; induction HV; [reflexivity|rewrite !zlen_cons; lia]).
  assert (UA : forall u, In u U <-> exists e, In e A /\ u = icell I (snd e)).
  { intros u. unfold U. rewrite in_map_iff. split; intros (e & H1 & H2); exists e; auto. }
  exists U, vs. split; [|split; [exact HV|split; [|split; [|split; [|split; [|split; [|split]]]]]]].
  - unfold U. clear -NDs HA Hc ND. induction A as [|a A IH]; [constructor|]. cbn in *. inversion NDs as [|? ? Hn ND']; subst.
    constructor; [|apply IH; auto]. rewrite in_map_iff. intros (e & Ee & He). apply Hn. apply in_map_iff. exists e. split; [|exact He].
    apply (icell_inj I); [exact ND| | |exact Ee]; apply Hc; apply HA; auto.
  - intros u Hu. exists (rho p1 (pt u)). apply NE. auto.
  - rewrite LU. unfold m. lia.
  - intros Hlt u r Hu. apply NE in Hu as [Hu _]. apply In_znth in Hu as [s Hs]. pose proof (znth_range _ _ _ Hs) as Rs.
    apply UA. exists (rho p1 (pt (icell I s)), s). split; [|unfold icell; cbn [snd]; rewrite Hs; reflexivity].
    assert (Hin : In (rho p1 (pt (icell I s)), s) c) by (unfold c; apply in_map_iff; exists s; split; [reflexivity|apply in_zrange; exact Rs]).
    assert (B = []). { pose proof (Permutation_length P0) as PL. rewrite app_length in PL. destruct B as [|b B']; [reflexivity|]. exfalso. cbn in PL. unfold zlen in *. unfold m in *. lia. }
    subst B. destruct (HBB _ Hin) as [|[]]. assumption.
  - intros NN u r u' r' Hu Hr Hr' Hn. apply UA in Hu as (e & He & ->). apply NE in Hr as [_ ->]. apply NE in Hr' as [Hu' ->].
    apply In_znth in Hu' as [s Hs]. pose proof (znth_range _ _ _ Hs) as Rs. assert (ES : icell I s = u') by (unfold icell; rewrite Hs; reflexivity).
    assert (Hin : In (rho p1 (pt (icell I s)), s) c) by (unfold c; apply in_map_iff; exists s; split; [reflexivity|apply in_zrange; exact Rs]).
    destruct (HBB _ Hin) as [Ha|Hb].
    + exfalso. apply Hn. apply UA. eexists. split; [exact Ha|]. cbn [snd]. auto.
    + assert (Q : forall e, In e c -> fst e <> NaN).
      { intros x Hx. apply Hc in Hx as [Hx ->]. apply (NN (icell I (snd x))). apply NE. split; [apply icell_in; exact Hx|reflexivity]. }
      specialize (Hle Q _ _ He Hb). cbn [fst] in Hle. destruct (Hc _ (HA _ He)) as [_ Ef]. rewrite Ef, ES in Hle. exact Hle.
  - intros ->. rewrite <- LV. reflexivity.
  - intros x l E. rewrite <- LV, E, zlen_map. rewrite (proj2 (Z.ltb_lt 0 (zlen (x :: l)))) by (rewrite zlen_cons; pose proof (zlen_nonneg l); lia).
    unfold fz. rewrite sum_fin. assert (N0 : qz (zlen (x :: l)) <> 0%Qc).
    { rewrite zlen_cons. pose proof (zlen_nonneg l). intros K. change 0%Qc with (qz 0) in K. apply qz_inj in K. lia. }
    unfold vdiv. destruct (qeqb_spec (qz (zlen (x :: l))) 0); [contradiction|]. unfold qmean, qlen. f_equal. f_equal.
    change (qz 0) with 0%Qc. ring.
  - intros Hn. rewrite <- LV, sum_nan by auto. destruct vs as [|x l]; [destruct Hn|]. pose proof (zlen_nonneg l).
    rewrite (proj2 (Z.ltb_lt 0 (zlen (x :: l)))) by (rewrite zlen_cons; lia). reflexivity.
Qed.
Lemma c96_all : forall G L loc corr rho ig og t Y X lats lons t' Y' X' lats' lons' iv num,
  geo_ok G -> lib_ok L -> (forall p q, corr p q = Ok (rho p q)) ->
  is_grid G t Y X lats lons ig -> is_grid G t' Y' X' lats' lons' og -> rect Y X iv -> valid_all2 t lats' ->
  exists out, smart G L (fun p => Ok (loc p)) corr ig og iv num = Ok out /\ rect Y' X' out /\
  forall i j la lo p1, get2 lats' i j = Ok la -> get2 lons' i j = Ok lo -> grid_get og i j = Ok p1 ->
  exists v, get2 out i j = Ok v /\ smart_value (neighbour_cell G t lats lons ig loc rho p1 (position G t la lo)) iv num v.
Proof.
  intros G L loc corr rho ig og t Y X lats lons t' Y' X' lats' lons' iv num HG HL HC HI HO HR HV.
  pose proof (is_grid_pos _ _ _ _ _ _ _ HO) as [HY HX]. destruct (is_grid_rect _ _ _ _ _ _ _ HO) as [R1 R2].
  unfold smart. rewrite (grid_size_ok _ _ _ _ _ _ _ HO). cbn [bind]. rewrite for2_init_tab by lia.
  assert (GP : forall y x, 0 <= y < Y' -> 0 <= x < X' -> exists p, grid_get og y x = Ok p).
  { intros y x Hy Hx. destruct (c35_all _ _ _ _ _ _ _ HO) as (_ & _ & _ & P' & _ & _ & _ & HGp).
    destruct (HGp (y * X' + x) y x) as (p' & _ & H2 & _); [nia|rewrite (get_indices_ok _ _ _ _ _ _ _ _ HO) by nia; rewrite lin_div, lin_mod by lia; reflexivity|]. eauto. }
  destruct (tab2_total Y' X' (smart_cell G L (fun p => Ok (loc p)) corr ig og iv num)
    (fun i j v => forall la lo p1, get2 lats' i j = Ok la -> get2 lons' i j = Ok lo -> grid_get og i j = Ok p1 ->
       smart_value (neighbour_cell G t lats lons ig loc rho p1 (position G t la lo)) iv num v)) as (out & Ho & HRo & K); [lia|lia| |].
  { intros i j Hi Hj. destruct (rect_get2 _ _ _ i j R1 Hi Hj) as [la Hla]. destruct (rect_get2 _ _ _ i j R2 Hi Hj) as [lo Hlo].
    destruct (GP i j Hi Hj) as [p1 Hp1].
    destruct (smart_cell_ok G L loc corr rho ig og t Y X lats lons t' Y' X' lats' lons' iv num i j p1 la lo) as (v & Hv & S); try assumption; [eapply valid_get2; eauto|].
    exists v. split; [exact Hv|]. intros la' lo' p1' A B C. congruence. }
  exists out. split; [exact Ho|]. split; [exact HRo|]. intros i j la lo p1 Hla Hlo Hp1. destruct (get2_range _ _ _ _ _ _ R1 Hla) as [Hi Hj].
  destruct (K i j Hi Hj) as (v & Hv & _ & S). exists v. split; [exact Hv|]. eapply S; eassumption.
Qed.
