(** C62, C83 and C84: when optimal interpolation returns. *)
From Coq Require Import Permutation.
From Verif Require Import Base QcTac ListLib M_Geo S_Geo S_Near M_OI S_OI P_Geo P_Neighbours P_Grid P_Points P_OISum P_OI P_OICell P_OISolve P_OIAll P_OIProps.
Local Open Scope Z_scope.

Lemma foldM_total {A B} (f : A -> B -> res A) l : (forall a b, In b l -> exists a', f a b = Ok a') -> forall a, exists a', foldM f a l = Ok a'.
Proof.
  induction l as [|b l IH]; intros H a; cbn [foldM]; [eauto|]. destruct (H a b (or_introl eq_refl)) as [a' ->]. cbn [bind]. apply IH. intros; apply H; right; assumption.
Qed.
Lemma mapM_some {A B} (f : A -> res B) l : (forall a, In a l -> exists b, f a = Ok b) -> exists r, mapM f l = Ok r.
Proof.
  induction l as [|a l IH]; intros H; cbn [mapM]; [eauto|]. destruct (H a (or_introl eq_refl)) as [b ->]. cbn [bind].
  destruct IH as [r ->]; [intros; apply H; right; assumption|]. cbn [bind]. eauto.
Qed.
Lemma mapM_throw {A B} (f : A -> res B) e l : (forall a, In a l -> (exists b, f a = Ok b) \/ f a = Throw e) ->
  (exists bs, mapM f l = Ok bs) \/ (mapM f l = Throw e /\ exists a, In a l /\ f a = Throw e).
Proof.
  induction l as [|a l IH]; intros H; cbn [mapM]; [left; eexists; reflexivity|].
  destruct (H a (or_introl eq_refl)) as [[b ->]|E]; cbn [bind].
  - destruct IH as [[bs ->]|[-> (a' & Ha & Ea)]]; [intros; apply H; right; assumption|left; eexists; reflexivity|].
    right. split; [reflexivity|]. exists a'. split; [right|]; assumption.
  - rewrite E. cbn [bind]. right. split; [reflexivity|]. exists a. split; [left; reflexivity|exact E].
Qed.

Section Total.
Variables (L : lib) (S : sfn) (pts : points) (pobs pratios pbg : vec) (nS : Z) (ex : bool)
  (loc : point -> val) (rho bg : point -> point -> val) (p1 : point).
Hypothesis HLib : lib_ok L.
Hypothesis HS : behaves S loc rho bg.
Hypothesis LO : zlen pobs = nS.
Hypothesis LG : zlen pbg = nS.
Hypothesis LR : zlen pratios = nS.
Let pvec := map (ptk pts) (zrange 0 nS).
Variable U : list Z.
Hypothesis HU : forall k, In k U -> 0 <= k < nS.
Let n := zlen U.
Lemma system_rect : exists M, system S pvec pratios U = Ok M /\ rect n n M.
Proof.
  destruct HS as (S1 & S2 & S3).
  assert (E : system S pvec pratios U = Ok (map (fun i => map (fun j => vadd (rho (ptk pts (ix U i)) (ptk pts (ix U j))) (if i =? j then vk pratios (ix U i) else fz 0)) (zrange 0 n)) (zrange 0 n))).
  { unfold system. apply mapM_ok. intros i Hi. apply in_zrange in Hi. rewrite (ix_ok U i Hi). cbn [bind].
    pose proof (ix_In U i Hi) as HiU. rewrite (vk_ok pratios) by (rewrite LR; apply HU; exact HiU). cbn [bind]. unfold pvec. rewrite znth_pvec by (apply HU; exact HiU). cbn [bind].
    rewrite (mapM_ok _ (ptk pts)) by (intros k Hk; apply znth_pvec; apply HU; exact Hk). cbn [bind]. rewrite S2. cbn [bind]. rewrite map_map.
    apply mapM_ok. intros j Hj. apply in_zrange in Hj. rewrite znth_map_ix by exact Hj. cbn [bind]. reflexivity. }
  rewrite E. eexists. split; [reflexivity|]. pose proof (zlen_nonneg U). apply rect_map_zrange; unfold n; lia.
Qed.
Lemma finish_total b v : (exists res, finish L S pvec pobs pratios pbg ex b v U (map (fun k => bg p1 (ptk pts k)) U) = Ok res) \/
  (finish L S pvec pobs pratios pbg ex b v U (map (fun k => bg p1 (ptk pts k)) U) = Throw RuntimeError /\ U <> [] /\
   exists M, system S pvec pratios U = Ok M /\ l_inv L M = Throw RuntimeError).
Proof.
  assert (C : U = [] \/ (U <> [] /\ 0 < n)).
  { unfold n. destruct U; [left; reflexivity|right; split; [discriminate|]]. rewrite zlen_cons. pose proof (zlen_nonneg l). lia. }
  unfold finish. fold n. destruct C as [E|[NE Hn]].
  { left. unfold n. rewrite E. cbn. eexists. reflexivity. }
  replace (n =? 0) with false by lia. destruct system_rect as (M & EM & RM). rewrite EM. cbn [bind].
  rewrite (mapM_ok (fun k => znth pobs k) (vk pobs)) by (intros k Hk; apply vk_ok; rewrite LO; apply HU; exact Hk). cbn [bind].
  rewrite (mapM_ok (fun k => znth pbg k) (vk pbg)) by (intros k Hk; apply vk_ok; rewrite LG; apply HU; exact Hk). cbn [bind].
  destruct (ok_inv_size _ HLib n M Hn RM) as [(N & EN & RN)|ET].
  2:{ right. rewrite ET. split; [reflexivity|]. split; [exact NE|]. exists M. auto. }
  left. rewrite EN. cbn [bind]. destruct RN as [RN1 RN2].
  assert (E1 : exists gs, row_mul n (map (fun k => bg p1 (ptk pts k)) U) N = Ok gs /\ zlen gs = n).
  { destruct (mapM_some (fun j => foldM (fun acc i => x <- znth (map (fun k => bg p1 (ptk pts k)) U) i ;; y <- get2 N i j ;; Ok (vadd acc (vmul x y))) (fz 0) (zrange 0 n)) (zrange 0 n)) as [gs Egs].
    - intros j Hj. apply in_zrange in Hj. apply foldM_total. intros acc i Hi. apply in_zrange in Hi.
      rewrite znth_map_ix by exact Hi. cbn [bind]. destruct (znth_some N i ltac:(lia)) as [row Er]. destruct (znth_some row j) as [q Eq].
      { rewrite (RN2 row) by (eapply znth_In; eauto). exact Hj. }
      unfold get2. rewrite Er. cbn [bind]. rewrite Eq. cbn [bind]. eauto.
    - exists gs. split; [exact Egs|]. apply mapM_inv in Egs as [Egs _]. rewrite zlen_zrange in Egs. lia. }
  destruct E1 as (gs & -> & Lg). cbn [bind].
  rewrite (mapM_ok _ (fun i => vsub (vk pobs (ix U i)) (vk pbg (ix U i)))).
  2:{ intros i Hi. apply in_zrange in Hi. rewrite !znth_map_ix by exact Hi. reflexivity. }
  cbn [bind].
  assert (V : forall a b, zlen a = n -> zlen b = n -> exists x, vdot n a b = Ok x).
  { intros a b' La Lb. unfold vdot. apply foldM_total. intros acc i Hi. apply in_zrange in Hi. destruct (znth_some a i ltac:(lia)) as [xa ->].
    destruct (znth_some b' i ltac:(lia)) as [xb ->]. cbn [bind]. eauto. }
  destruct (V gs (map (fun i => vsub (vk pobs (ix U i)) (vk pbg (ix U i))) (zrange 0 n))) as [dx ->]; [exact Lg|rewrite zlen_map, zlen_zrange; lia|].
  destruct (V gs (map (fun k => bg p1 (ptk pts k)) U)) as [a ->]; [exact Lg|rewrite zlen_map; reflexivity|]. cbn [bind]. eauto.
Qed.
End Total.

Section Full.
Variables (G : geo) (L : lib) (S : sfn) (t : ctype) (blas blos : list Qc) (bpts : points) (las los : list Qc) (pts : points)
  (loc : point -> val) (rho bg : point -> point -> val) (background bvariance pobs ov pbg bvp : vec) (mp : Z) (av0 : vec) (ex : bool).
Hypothesis HSet : setting G L S t blas blos bpts las los pts loc rho bg.
Notation full := (oi_full G L S bpts background bvariance pts pobs ov pbg bvp mp av0 ex).
Let HG := set_geo _ _ _ _ _ _ _ _ _ _ _ _ _ HSet.
Let HLib := set_lib _ _ _ _ _ _ _ _ _ _ _ _ _ HSet.
Let HS := set_sf _ _ _ _ _ _ _ _ _ _ _ _ _ HSet.
Let HB := set_bpts _ _ _ _ _ _ _ _ _ _ _ _ _ HSet.
Let HP := set_pts _ _ _ _ _ _ _ _ _ _ _ _ _ HSet.
Hypothesis LG : zlen pbg = zlen las.
Hypothesis Hmp : 0 <= mp.
Hypothesis H2 : zlen background = zlen blas.
Hypothesis H3 : zlen bvariance = zlen blas.
Hypothesis H4 : zlen pobs = zlen las.
Hypothesis H5 : zlen ov = zlen las.
Hypothesis H6 : zlen bvp = zlen las.
Let pratios := map (fun s => vdiv (vk ov s) (vk bvp s)) (zrange 0 (zlen las)).
Let pvec := map (ptk pts) (zrange 0 (zlen las)).
Notation cell := (oi_cell G L S bpts background bvariance pts pvec pobs pratios pbg mp ex).
Lemma LRr : zlen pratios = zlen las. Proof. unfold pratios. rewrite zlen_map, zlen_zrange. pose proof (zlen_nonneg las). lia. Qed.

Lemma cell_total y : 0 <= y < zlen blas -> (exists res, cell y = Ok res) \/
  (cell y = Throw RuntimeError /\ exists p1 U, points_get bpts y = Ok p1 /\ NoDup U /\ U <> [] /\ (forall k, In k U -> 0 <= k < zlen las) /\
     exists M, system S pvec pratios U = Ok M /\ l_inv L M = Throw RuntimeError).
Proof.
  intros Hy. destruct (is_valid (vk background y)) eqn:Hv.
  - destruct (valid_fin _ Hv) as [q Eq]. destruct (has_bpoint G t blas blos bpts HB y Hy) as (p1 & pos & Hp).
    destruct (bpoint_at _ _ _ _ _ _ _ _ Hp) as (la & lo & Hla & Hlo & -> & Hp1).
    destruct (cell_choice G L S t blas blos las los bpts pts background bvariance pobs pratios pbg mp ex loc rho bg HG HLib HS HB HP)
      with (y := y) (b := q) (v := vk bvariance y) (la := la) (lo := lo) (p1 := p1) as (U & HU & RU & EF); auto.
    + rewrite <- Eq. apply vk_ok. lia.
    + apply vk_ok. lia.
    + fold pvec in EF. rewrite EF. destruct (finish_total L S pts pobs pratios pbg (zlen las) ex loc rho bg p1 HLib HS H4 LG LRr U RU (Fin q) (vk bvariance y)) as [HH|(HH & NU & HM)].
      * left. exact HH.
      * right. split; [exact HH|]. exists p1, U. destruct HU as (ND & _). auto.
  - left. unfold oi_cell. rewrite !vk_ok by lia. cbn [bind]. rewrite Hv. eexists. reflexivity.
Qed.
Lemma full_checked : las = [] -> full = Ok (background, av0).
Proof.
  intros E. unfold oi_full.
  replace (mp <? 0) with false by lia. rewrite (at_type _ _ _ _ _ HB), (at_type _ _ _ _ _ HP), (at_size _ _ _ _ _ HB), (at_size _ _ _ _ _ HP).
  fold (ctype_eqb t t). replace (ctype_eqb t t) with true by (symmetry; apply ctype_eqb_spec; reflexivity). cbn [negb].
  rewrite H2, H3, H4, H5, H6. rewrite !Z.eqb_refl. rewrite E. reflexivity.
Qed.
Lemma full_total : (exists out var, full = Ok (out, var) /\ zlen out = zlen blas /\ (las <> [] -> zlen var = zlen blas)) \/
  (full = Abort /\ exists U M, NoDup U /\ U <> [] /\ (forall k, In k U -> 0 <= k < zlen las) /\ system S pvec pratios U = Ok M /\ l_inv L M = Throw RuntimeError).
Proof.
  assert (C : las = [] \/ (las <> [] /\ 0 < zlen las)).
  { destruct las; [left; reflexivity|right; split; [discriminate|]]. rewrite zlen_cons. pose proof (zlen_nonneg l). lia. }
  destruct C as [E|[NE Hn]].
  { left. exists background, av0. split; [apply full_checked; exact E|]. split; [exact H2|congruence]. }
  rewrite (full_eq G L S t blas blos las los bpts pts background bvariance pobs ov pbg bvp mp av0 ex HB HP) by assumption. fold pratios pvec.
  destruct (mapM_throw cell RuntimeError (zrange 0 (zlen blas))) as [[bs E]|[E (y & Hy & Ey)]].
  - intros y Hy. apply in_zrange in Hy. destruct (cell_total y Hy) as [HH|[HH _]]; auto.
  - left. rewrite E. cbn [omp bind]. exists (map fst bs), (map snd bs). split; [reflexivity|]. rewrite !zlen_map. apply mapM_inv in E as [E _].
    rewrite zlen_zrange in E. pose proof (zlen_nonneg blas). split; [lia|intros _; lia].
  - right. rewrite E. split; [reflexivity|]. apply in_zrange in Hy. destruct (cell_total y Hy) as [[res HH]|[_ (p1 & U & _ & H7 & H8 & H9 & M & H10 & H11)]]; [congruence|].
    exists U, M. auto.
Qed.
(** valid correlations and positive error variances: the system is regular *)
Lemma regular r ratio U M : NoDup U -> U <> [] -> (forall k, In k U -> 0 <= k < zlen las) ->
  known_obs pts (zlen las) rho ov bvp r ratio -> (forall c, 0 <= tot U (fun k => tot U (fun j => c k * c j * r k j)))%Qc -> (forall k, 0 <= k < zlen las -> (0 < ratio k)%Qc) ->
  system S pvec pratios U = Ok M -> forall e, l_inv L M <> Throw e.
Proof.
  intros ND NU RU [KR KV] VC HR EM e EI.
  assert (Hn : 0 < zlen U). { destruct U as [|u0 l0]; [congruence|]. rewrite zlen_cons. pose proof (zlen_nonneg l0). lia. }
  destruct (system_ok S pts pratios (zlen las) loc rho bg r ratio HS U RU) as (M' & EM' & EntM).
  { intros k Hk. unfold pratios. rewrite znth_map, znth_zrange by (specialize (RU k Hk); lia). cbn [bind]. replace (0 + k) with k by lia.
    destruct (KV k (RU k Hk)) as (vo & vb & E1 & E2 & E3 & ->). unfold vk. rewrite E1, E2. unfold vdiv.
    destruct (qeqb_spec vb 0); [contradiction|]. reflexivity. }
  { intros k j Hk Hj. apply KR; eapply ptk_ok; eauto. }
  fold pvec in EM'. rewrite EM in EM'. injection EM' as <-.
  destruct (ok_inv_sing _ HLib (zlen U) M _ e Hn EntM EI) as (x & (i0 & Hi0 & Nx) & HK).
  destruct (by_obs U x ND) as [w Hw].
  assert (W0 : forall j, In j U -> tot U (fun k => w k * (r k j + (if (k =? j)%Z then ratio k else 0)))%Qc = 0%Qc).
  { intros j Hj. destruct (In_ix U j Hj) as (l & Hl & <-). transitivity (tot (zrange 0 (zlen U)) (fun i => x i * amat r ratio U i l)%Qc); [|apply HK; exact Hl]. rewrite (tot_ix U). apply tot_ext. intros i Hi. apply in_zrange in Hi. rewrite Hw by exact Hi.
    f_equal. unfold amat. f_equal. destruct (Z.eqb_spec i l) as [-> |E]; [rewrite Z.eqb_refl; reflexivity|].
    destruct (Z.eqb_spec (ix U i) (ix U l)) as [E'|_]; [|reflexivity]. exfalso. apply E. eapply ix_inj; eauto. }
  pose proof (quad_form r ratio U w (fun _ => 0%Qc) ND W0) as Q. rewrite tot_zero in Q by (intros; ring). specialize (VC w).
  assert (Nn : forall k, In k U -> (0 <= w k * w k * ratio k)%Qc).
  { intros k Hk. pose proof (HR k (RU k Hk)) as R1. generalize (w k), (ratio k), R1. intros q q0 R. assert (0 <= q * q)%Qc by qnra. generalize dependent (q * q)%Qc. intros. qnra. }
  pose proof (tot_le U _ Nn (ix U i0) ND (ix_In U i0 Hi0)) as T. cbv beta in T. rewrite Hw in T by exact Hi0.
  pose proof (HR _ (RU _ (ix_In U i0 Hi0))) as R1.
  set (R := tot U (fun k => w k * w k * ratio k)%Qc) in *. set (P := tot U (fun k => tot U (fun j => w k * w j * r k j))%Qc) in *.
  set (rr := ratio (ix U i0)) in *. set (xx := x i0) in *. clearbody R P rr xx. clear - Q VC T R1 Nx.
  assert (Z0 : (xx * xx * rr <= 0)%Qc) by qlra. apply Nx. destruct (Qc_dec xx 0) as [[H|H]|H]; [exfalso|exfalso|exact H].
  - assert (0 < xx * xx)%Qc by qnra. generalize dependent (xx * xx)%Qc. intros. qnra.
  - assert (0 < xx * xx)%Qc by qnra. generalize dependent (xx * xx)%Qc. intros. qnra.
Qed.
Lemma c84_all : forall r ratio, known_obs pts (zlen las) rho ov bvp r ratio ->
  (forall U c, NoDup U -> (forall k, In k U -> 0 <= k < zlen las) -> (0 <= tot U (fun k => tot U (fun j => c k * c j * r k j)))%Qc) ->
  (forall k, 0 <= k < zlen las -> (0 < ratio k)%Qc) ->
  exists out var, full = Ok (out, var) /\ zlen out = zlen background /\ (las <> [] -> zlen var = zlen background).
Proof.
  intros r ratio KO VC HR. destruct full_total as [(out & var & E & L1 & L2)|(E & U & M & ND & NU & RU & EM & EI)].
  - exists out, var. rewrite H2. auto.
  - exfalso. eapply (regular r ratio U M); eauto.
Qed.
End Full.
