(** The ensemble transform at one background point: what the code computes. *)
From Coq Require Import Lra.
From Verif Require Import Base QcTac ListLib RBase P_RBase M_Geo S_Geo M_Stat M_OI S_OI P_OISum P_OI P_OISolve P_OITotal M_EnsMulti M_Ensi P_EnsSel P_EnsMulti S_EnsMulti S_Ensi P_RSum P_EnsiAlg.
Local Open Scope Z_scope.

Lemma qz_pos n : 0 < n -> (0 < qz n)%Qc.
Proof. intros. change 0%Qc with (qz 0). apply qz_lt. exact H. Qed.
Lemma qz_neq0 n : n <> 0 -> qz n <> 0%Qc.
Proof. intros H E. apply H. apply qz_inj. exact E. Qed.
(** *** sums *)
Lemma vsumM_ok n f x : (forall i, 0 <= i < n -> f i = Ok (Fin (x i))) -> vsumM n f = Ok (Fin (tot (zrange 0 n) x)).
Proof.
  intros H. unfold vsumM. rewrite fz0.
  assert (K : forall l s, (forall i, In i l -> f i = Ok (Fin (x i))) -> foldM (fun acc i => a <- f i ;; Ok (vadd acc a)) (Fin s) l = Ok (Fin (s + tot l x)%Qc)).
  { induction l as [|i l IH]; intros s Hl; cbn [foldM].
    - unfold tot. cbn [map fold_right]. do 2 f_equal. ring.
    - rewrite (Hl i) by (left; reflexivity). cbn [bind vadd]. rewrite IH by (intros; apply Hl; right; assumption). rewrite tot_cons. do 2 f_equal. ring. }
  rewrite K by (intros i Hi; apply H; apply in_zrange in Hi; exact Hi). do 2 f_equal. ring.
Qed.
Lemma rsumM_ok n f x : (forall i, 0 <= i < n -> f i = Ok (RF (x i))) -> rsumM n f = Ok (RF (rtot (zrange 0 n) x)).
Proof.
  intros H. unfold rsumM, rz.
  assert (K : forall l s, (forall i, In i l -> f i = Ok (RF (x i))) -> foldM (fun acc i => a <- f i ;; Ok (radd acc a)) (RF s) l = Ok (RF (s + rtot l x)%R)).
  { induction l as [|i l IH]; intros s Hl; cbn [foldM].
    - unfold rtot. cbn [map fold_right]. do 2 f_equal. ring.
    - rewrite (Hl i) by (left; reflexivity). cbn [bind radd]. rewrite IH by (intros; apply Hl; right; assumption). rewrite rtot_cons. do 2 f_equal. ring. }
  rewrite K by (intros i Hi; apply H; apply in_zrange in Hi; exact Hi). do 2 f_equal. ring.
Qed.
Lemma vsumM_total n f : (forall i, 0 <= i < n -> exists v, f i = Ok v) -> exists v, vsumM n f = Ok v.
Proof.
  intros H. unfold vsumM. apply foldM_total. intros a i Hi. apply in_zrange in Hi. destruct (H i Hi) as [v ->]. cbn [bind]. eauto.
Qed.
Lemma rsumM_total n f : (forall i, 0 <= i < n -> exists v, f i = Ok v) -> exists v, rsumM n f = Ok v.
Proof.
  intros H. unfold rsumM. apply foldM_total. intros a i Hi. apply in_zrange in Hi. destruct (H i Hi) as [v ->]. cbn [bind]. eauto.
Qed.
(** *** matrices *)
Definition mat (n m : Z) (M : vec2) (A : Z -> Z -> Qc) : Prop :=
  rect n m M /\ forall i j, 0 <= i < n -> 0 <= j < m -> get2 M i j = Ok (Fin (A i j)).
Lemma tab2_mat n m f A : 0 <= n -> 0 <= m -> (forall i j, 0 <= i < n -> 0 <= j < m -> f i j = Ok (Fin (A i j))) -> exists M, tab2 n m f = Ok M /\ mat n m M A.
Proof.
  intros Hn Hm H. destruct (tab2_total n m f (fun i j v => v = Fin (A i j)) Hn Hm) as (M & E & R & HM).
  { intros i j Hi Hj. eexists. split; [apply H; assumption|reflexivity]. }
  exists M. split; [exact E|]. split; [exact R|]. intros i j Hi Hj. destruct (HM i j Hi Hj) as (v & -> & _ & ->). reflexivity.
Qed.
Lemma tab2_rect {A} n m (f : Z -> Z -> res A) : 0 <= n -> 0 <= m -> (forall i j, 0 <= i < n -> 0 <= j < m -> exists v, f i j = Ok v) -> exists M, tab2 n m f = Ok M /\ rect n m M.
Proof.
  intros Hn Hm H. destruct (tab2_total n m f (fun _ _ _ => True) Hn Hm) as (M & E & R & _).
  { intros i j Hi Hj. destruct (H i j Hi Hj) as [v Hv]. eauto. }
  eauto.
Qed.
Lemma mat_ext n m M A B : mat n m M A -> (forall i j, 0 <= i < n -> 0 <= j < m -> A i j = B i j) -> mat n m M B.
Proof. intros [R H] E. split; [exact R|]. intros i j Hi Hj. rewrite <- E by assumption. apply H; assumption. Qed.
Lemma mmul_ok n k m A B a b : 0 <= n -> 0 <= m -> mat n k A a -> mat k m B b ->
  exists C, mmul n k m A B = Ok C /\ mat n m C (fun i j => tot (zrange 0 k) (fun l => a i l * b l j)%Qc).
Proof.
  intros Hn Hm [_ HA] [_ HB]. apply tab2_mat; try assumption. intros i j Hi Hj. apply vsumM_ok. intros l Hl. rewrite HA, HB by assumption. reflexivity.
Qed.
Lemma mmul_rect n k m A B : 0 <= n -> 0 <= m -> rect n k A -> rect k m B -> exists C, mmul n k m A B = Ok C /\ rect n m C.
Proof.
  intros Hn Hm HA HB. apply tab2_rect; try assumption. intros i j Hi Hj. apply vsumM_total. intros l Hl.
  destruct (rect_get2 _ _ _ i l HA Hi Hl) as [x ->]. destruct (rect_get2 _ _ _ l j HB Hl Hj) as [z ->]. cbn [bind]. eauto.
Qed.
Lemma transp_ok n m A a : 0 <= n -> 0 <= m -> mat n m A a -> exists C, transp n m A = Ok C /\ mat m n C (fun i j => a j i).
Proof. intros Hn Hm [_ HA]. apply tab2_mat; try assumption. intros i j Hi Hj. apply HA; assumption. Qed.
Lemma transp_rect n m (A : vec2) : 0 <= n -> 0 <= m -> rect n m A -> exists C, transp n m A = Ok C /\ rect m n C.
Proof. intros Hn Hm HA. apply tab2_rect; try assumption. intros i j Hi Hj. apply (rect_get2 _ _ _ j i HA); assumption. Qed.
Lemma vdiv_ok a b : b <> 0%Qc -> vdiv (Fin a) (Fin b) = Fin (a / b)%Qc.
Proof. intros H. unfold vdiv. destruct (qeqb_spec b 0); [contradiction|reflexivity]. Qed.

Section Mats.
Variables (lS nV : Z) (g sig : vec) (lY : vec2).
Hypothesis HlS : 0 <= lS.
Hypothesis HnV : 0 <= nV.
Lemma ens_c_rect : zlen g = lS -> zlen sig = lS -> rect lS nV lY -> exists C, ens_c lS nV g sig lY = Ok C /\ rect nV lS C.
Proof.
  intros Lg Ls RY. unfold ens_c.
  destruct (tab2_rect lS lS (fun i j => if i =? j then r <- znth g i ;; s <- znth sig i ;; Ok (vdiv r (vmul s s)) else Ok (fz 0))) as (Ri & ERi & RRi); try assumption.
  { intros i j Hi Hj. destruct (i =? j); [|eauto]. destruct (znth_some g i ltac:(lia)) as [a ->]. destruct (znth_some sig i ltac:(lia)) as [b ->]. cbn [bind]. eauto. }
  rewrite ERi. cbn [bind]. destruct (transp_rect lS nV lY HlS HnV RY) as (T & ET & RT). rewrite ET. cbn [bind]. apply mmul_rect; assumption.
Qed.
Lemma ens_c_ok gg s y : (forall i, 0 <= i < lS -> znth g i = Ok (Fin (gg i))) -> (forall i, 0 <= i < lS -> znth sig i = Ok (Fin (s i)) /\ s i <> 0%Qc) ->
  mat lS nV lY y -> exists C, ens_c lS nV g sig lY = Ok C /\ mat nV lS C (fun e i => y i e * (gg i / (s i * s i)))%Qc.
Proof.
  intros Hg Hs MY. unfold ens_c.
  destruct (tab2_mat lS lS (fun i j => if i =? j then r <- znth g i ;; s <- znth sig i ;; Ok (vdiv r (vmul s s)) else Ok (fz 0)) (fun i j => (gg i / (s i * s i)) * unit_ i j)%Qc) as (Ri & ERi & RRi); try assumption.
  { intros i j Hi Hj. unfold unit_. destruct (i =? j).
    - destruct (Hs i Hi) as [-> Nz]. rewrite Hg by exact Hi. cbn [bind]. rewrite vmul_fin, vdiv_ok. { do 2 f_equal. ring. }
      intros E. apply Qcmult_integral in E. tauto.
    - rewrite fz0. do 2 f_equal. ring. }
  rewrite ERi. cbn [bind]. destruct (transp_ok lS nV lY y HlS HnV MY) as (T & ET & RT). rewrite ET. cbn [bind].
  destruct (mmul_ok nV lS lS _ _ _ _ HnV HlS RT RRi) as (C & EC & MC). exists C. split; [exact EC|]. eapply mat_ext; [exact MC|].
  intros e i He Hi. cbn beta. rewrite (tot_ext _ _ (fun l => (y l e * (gg l / (s l * s l))) * unit_ l i)%Qc) by (intros; ring).
  apply tot_delta; [apply NoDup_zrange|apply in_zrange; exact Hi].
Qed.
Lemma ens_pinv_rect C : rect nV lS C -> rect lS nV lY -> exists M, ens_pinv lS nV C lY = Ok M /\ rect nV nV M.
Proof.
  intros RC RY. unfold ens_pinv. destruct (mmul_rect nV lS nV C lY HnV HnV RC RY) as (CY & E & R). rewrite E. cbn [bind].
  apply tab2_rect; try assumption. intros i j Hi Hj. destruct (rect_get2 _ _ _ i j R Hi Hj) as [v ->]. cbn [bind]. eauto.
Qed.
Lemma ens_pinv_ok C c y : mat nV lS C c -> mat lS nV lY y ->
  exists M, ens_pinv lS nV C lY = Ok M /\ mat nV nV M (fun i j => tot (zrange 0 lS) (fun l => c i l * y l j) + qz (nV - 1) * unit_ i j)%Qc.
Proof.
  intros RC RY. unfold ens_pinv. destruct (mmul_ok nV lS nV C lY _ _ HnV HnV RC RY) as (CY & E & [_ R]). rewrite E. cbn [bind].
  apply tab2_mat; try assumption. intros i j Hi Hj. rewrite R by assumption. cbn [bind]. unfold unit_. destruct (i =? j); reflexivity.
Qed.
End Mats.

Lemma sym_root_total nV lam V : 0 <= nV -> zlen lam = nV -> rect nV nV V -> exists W, sym_root nV lam V = Ok W /\ rect nV nV W.
Proof.
  intros H0 Hl HV. apply tab2_rect; try assumption. intros i j Hi Hj. apply rsumM_total. intros l Hl'.
  destruct (rect_get2 _ _ _ i l HV Hi Hl') as [a ->]. destruct (znth_some lam l ltac:(lia)) as [s ->]. destruct (rect_get2 _ _ _ j l HV Hj Hl') as [b ->]. cbn [bind]. eauto.
Qed.
Lemma sym_root_ok nV lam V l v : 0 <= nV -> (forall i, 0 <= i < nV -> znth lam i = Ok (RF (l i)) /\ (0 <= l i)%R) -> rentries nV V v ->
  exists W, sym_root nV lam V = Ok W /\ rentries nV W (root nV v l).
Proof.
  intros H0 Hl [HV EV].
  destruct (tab2_total nV nV (fun i j => rsumM nV (fun l => a <- get2 V i l ;; s <- znth lam l ;; b <- get2 V j l ;; Ok (rmul (rmul a (rsqrt s)) b)))
     (fun i j w => w = RF (root nV v l i j)) H0 H0) as (W & EW & RW & HW).
  { intros i j Hi Hj. eexists. split; [|reflexivity]. apply rsumM_ok. intros k Hk. rewrite !EV by assumption. destruct (Hl k Hk) as [-> P]. cbn [bind].
    rewrite rsqrt_RF by exact P. reflexivity. }
  exists W. split; [exact EW|]. split; [exact RW|]. intros i j Hi Hj. destruct (HW i j Hi Hj) as (w & -> & _ & ->). reflexivity.
Qed.
(** *** writing the chosen entries of a row *)
Lemma write_at {A} (U : list Z) (f : Z -> A) (g : list A -> Z -> res (list A)) (v0 : list A) : NoDup U -> (forall k, In k U -> 0 <= k < zlen v0) ->
  (forall a e, 0 <= e < zlen U -> g a e = zset a (ix U e) (f e)) ->
  exists r, foldM g v0 (zrange 0 (zlen U)) = Ok r /\ zlen r = zlen v0 /\ (forall e, 0 <= e < zlen U -> znth r (ix U e) = Ok (f e)) /\ (forall k, ~ In k U -> znth r k = znth v0 k).
Proof.
  intros ND HU Hg.
  assert (K : forall j : nat, Z.of_nat j <= zlen U -> exists r, foldM g v0 (zrange 0 (Z.of_nat j)) = Ok r /\ zlen r = zlen v0 /\
     (forall e, 0 <= e < Z.of_nat j -> znth r (ix U e) = Ok (f e)) /\ (forall k, ~ In k U -> znth r k = znth v0 k)).
  { induction j as [|j IH]; intros Hj.
    - exists v0. split; [reflexivity|]. split; [reflexivity|]. split; [intros; lia|reflexivity].
    - destruct IH as (r & E & El & E1 & E2); [lia|]. rewrite zrange_snoc by lia. replace (Z.of_nat (S j) - 1) with (Z.of_nat j) by lia.
      rewrite foldM_app, E. cbn [bind foldM]. rewrite Hg by lia. pose proof (HU _ (ix_In U (Z.of_nat j) ltac:(lia))) as Rj.
      rewrite zset_Ok by lia. eexists. split; [reflexivity|]. rewrite zlen_lset. split; [exact El|].
      split; intros e He.
      + pose proof (HU _ (ix_In U e ltac:(lia))). rewrite znth_lset by lia. destruct (Z.eqb_spec (ix U e) (ix U (Z.of_nat j))) as [Eq|N].
        * apply ix_inj in Eq; try lia; [subst e; reflexivity|exact ND].
        * apply E1. assert (e <> Z.of_nat j) by congruence. lia.
      + rewrite <- E2 by exact He. destruct (Z_lt_dec e 0) as [L|L]; [unfold znth; replace (e <? 0) with true by lia; reflexivity|].
        rewrite znth_lset by lia. destruct (Z.eqb_spec e (ix U (Z.of_nat j))) as [-> |N]; [|reflexivity]. exfalso. apply He. apply ix_In. lia. }
  destruct (K (length U)) as (r & H); [unfold zlen; lia|]. exists r. exact H.
Qed.

(** *** the update once the observations are chosen *)
Definition core (L : lib) (EL : elib) (valid : list Z) (ex : bool) (lS : Z) (g sig lObs lYhat : vec) (lY : vec2) (row : vec) : res (list rv) :=
  let nV := zlen valid in
  if nV =? 0 then Ok (map v2r row) else
  C <- ens_c lS nV g sig lY ;;
  Pinv <- ens_pinv lS nV C lY ;;
  if vleb (e_rcond EL Pinv) (fz 0) then Ok (map v2r row) else
  P <- l_inv L Pinv ;;
  A <- tab2 nV nV (fun i j => p <- get2 P i j ;; Ok (vmul (fz (nV - 1)) p)) ;;
  match e_eig EL A with
  | None => Ok (map v2r row)
  | Some (lam, V) => ens_update lS valid lObs lYhat lY C P lam V ex row
  end.
Lemma div_bounds a b n : 0 < b -> 0 <= a < n -> 0 <= a mod b < b /\ 0 <= a / b < n.
Proof.
  intros Hb Ha. pose proof (Z.mod_pos_bound a b Hb). split; [exact H|]. split; [apply Z.div_pos; lia|].
  apply Z.le_lt_trans with a; [|lia]. apply Z.div_le_upper_bound; nia.
Qed.

Section Core.
Variables (L : lib) (EL : elib) (valid : list Z) (ex : bool) (lS nE : Z) (g sig lObs lYhat : vec) (lY : vec2) (row : vec).
Hypothesis HLib : lib_ok L.
Hypothesis HE : elib_ok EL.
Hypothesis HlS : 0 < lS.
Hypothesis NDV : NoDup valid.
Hypothesis HV : forall e, In e valid -> 0 <= e < nE.
Hypothesis LR : zlen row = nE.
Let nV := zlen valid.
Notation run := (core L EL valid ex lS g sig lObs lYhat lY row).
Notation kept := (fun out => zlen out = nE /\ forall e, ~ In e valid -> znth out e = znth (map v2r row) e).
Lemma kept_row : zlen (map v2r row) = nE /\ forall e, ~ In e valid -> znth (map v2r row) e = znth (map v2r row) e.
Proof. rewrite zlen_map. auto. Qed.

Lemma core_total : zlen g = lS -> zlen sig = lS -> zlen lObs = lS -> zlen lYhat = lS -> rect lS nV lY ->
  (exists out, run = Ok out /\ zlen out = nE /\ forall e, ~ In e valid -> znth out e = znth (map v2r row) e) \/
  (run = Throw RuntimeError /\ exists M, l_inv L M = Throw RuntimeError).
Proof.
  intros Lg Ls Lo Lh RY. unfold core. fold nV. pose proof (zlen_nonneg valid) as Hn. fold nV in Hn.
  destruct (nV =? 0) eqn:E0. { left. eexists. split; [reflexivity|exact kept_row]. }
  apply Z.eqb_neq in E0.
  destruct (ens_c_rect lS nV g sig lY ltac:(lia) Hn Lg Ls RY) as (C & EC & RC). rewrite EC. cbn [bind].
  destruct (ens_pinv_rect lS nV lY Hn C RC RY) as (M & EM & RM). rewrite EM. cbn [bind].
  destruct (vleb _ _). { left. eexists. split; [reflexivity|exact kept_row]. }
  destruct (ok_inv_size _ HLib nV M ltac:(lia) RM) as [(P & EP & RP)|ET].
  2:{ right. rewrite ET. split; [reflexivity|]. exists M. exact ET. }
  rewrite EP. cbn [bind].
  destruct (tab2_rect nV nV (fun i j => p <- get2 P i j ;; Ok (vmul (fz (nV - 1)) p)) Hn Hn) as (A & EA & RA).
  { intros i j Hi Hj. destruct (rect_get2 _ _ _ i j RP Hi Hj) as [v ->]. cbn [bind]. eauto. }
  rewrite EA. cbn [bind]. destruct (e_eig EL A) as [[lam V]|] eqn:EE.
  2:{ left. eexists. split; [reflexivity|exact kept_row]. }
  destruct (ok_eig_size _ HE nV A lam V ltac:(lia) RA EE) as [Ll RV].
  left. unfold ens_update. fold nV.
  destruct (sym_root_total nV lam V Hn Ll RV) as (W & EW & RW). rewrite EW. cbn [bind].
  destruct (mmul_rect nV nV lS P C Hn ltac:(lia) RP RC) as (PC & EPC & RPC). rewrite EPC. cbn [bind].
  destruct (mapM_some (fun e => vsumM lS (fun i => p <- get2 PC e i ;; o <- znth lObs i ;; h <- znth lYhat i ;; Ok (vmul p (vsub o h)))) (zrange 0 nV)) as [w Ew].
  { intros e He. apply in_zrange in He. apply vsumM_total. intros i Hi. destruct (rect_get2 _ _ _ e i RPC He Hi) as [p ->].
    destruct (znth_some lObs i ltac:(lia)) as [o ->]. destruct (znth_some lYhat i ltac:(lia)) as [h ->]. cbn [bind]. eauto. }
  rewrite Ew. cbn [bind]. apply mapM_inv in Ew as [Lw _]. rewrite zlen_zrange in Lw.
  rewrite (mapM_ok _ (vk row)) by (intros e He; apply vk_ok; rewrite LR; apply HV; exact He). cbn [bind].
  set (mean := vdiv _ _). rewrite map_map.
  (* each step writes one member *)
  assert (Step : forall e, exists v, forall out, 0 <= e < nV ->
     (ei <- znth valid e ;;
      x <- znth (map (fun v => vsub (vk row v) mean) valid) e ;;
      inc <- rsumM nV (fun k => xk <- znth (map (fun v => vsub (vk row v) mean) valid) k ;; wk <- get2 W k e ;; ww <- znth w k ;; Ok (rmul (v2r xk) (radd wk (v2r ww)))) ;;
      inc' <- (if ex then Ok inc else d <- ens_incs lS lObs lYhat lY e ;; Ok (ens_limit inc (v2r x) (v2r (amax d)) (v2r (amin d)))) ;;
      zset out ei (radd (v2r mean) inc')) = zset out (ix valid e) v).
  { intros e. destruct (Z_le_dec 0 e) as [H1|H1]; [destruct (Z_lt_dec e nV) as [H2|H2]|]; [|exists RNaN; intros; lia|exists RNaN; intros; lia].
    destruct (rsumM_total nV (fun k => xk <- znth (map (fun v => vsub (vk row v) mean) valid) k ;; wk <- get2 W k e ;; ww <- znth w k ;; Ok (rmul (v2r xk) (radd wk (v2r ww))))) as [inc Einc].
    { intros k Hk. rewrite znth_map_ix by exact Hk. destruct (rect_get2 _ _ _ k e RW Hk ltac:(lia)) as [a ->]. destruct (znth_some w k ltac:(lia)) as [b ->]. cbn [bind]. eauto. }
    assert (Einc' : exists inc', (if ex then Ok inc else d <- ens_incs lS lObs lYhat lY e ;; Ok (ens_limit inc (v2r (vsub (vk row (ix valid e)) mean)) (v2r (amax d)) (v2r (amin d)))) = Ok inc').
    { destruct ex; [eauto|]. unfold ens_incs. destruct (div_bounds e lS nV HlS ltac:(lia)) as [B1 B2]. destruct (rect_get2 _ _ _ _ _ RY B1 B2) as [a ->]. cbn [bind].
      destruct (mapM_some (fun i => o <- znth lObs i ;; h <- znth lYhat i ;; Ok (vsub o (vadd a h))) (zrange 0 lS)) as [d ->].
      - intros i Hi. apply in_zrange in Hi. destruct (znth_some lObs i ltac:(lia)) as [o ->]. destruct (znth_some lYhat i ltac:(lia)) as [h ->]. cbn [bind]. eauto.
      - cbn [bind]. eauto. }
    destruct Einc' as [inc' Einc']. exists (radd (v2r mean) inc'). intros out _.
    rewrite (ix_ok valid e) by (unfold nV in *; lia). cbn [bind]. rewrite znth_map_ix by (unfold nV in *; lia). cbn [bind]. rewrite Einc. cbn [bind]. rewrite Einc'. reflexivity. }
  assert (Cho : exists F, forall e out, 0 <= e < nV ->
     (ei <- znth valid e ;;
      x <- znth (map (fun v => vsub (vk row v) mean) valid) e ;;
      inc <- rsumM nV (fun k => xk <- znth (map (fun v => vsub (vk row v) mean) valid) k ;; wk <- get2 W k e ;; ww <- znth w k ;; Ok (rmul (v2r xk) (radd wk (v2r ww)))) ;;
      inc' <- (if ex then Ok inc else d <- ens_incs lS lObs lYhat lY e ;; Ok (ens_limit inc (v2r x) (v2r (amax d)) (v2r (amin d)))) ;;
      zset out ei (radd (v2r mean) inc')) = zset out (ix valid e) (F e)).
  { set (val1 := fun e => match (inc <- rsumM nV (fun k => xk <- znth (map (fun v => vsub (vk row v) mean) valid) k ;; wk <- get2 W k e ;; ww <- znth w k ;; Ok (rmul (v2r xk) (radd wk (v2r ww)))) ;;
       inc' <- (if ex then Ok inc else d <- ens_incs lS lObs lYhat lY e ;; Ok (ens_limit inc (v2r (vsub (vk row (ix valid e)) mean)) (v2r (amax d)) (v2r (amin d)))) ;;
       Ok (radd (v2r mean) inc')) with Ok v => v | _ => RNaN end).
    exists val1. intros e out He. destruct (Step e) as [v Hv]. rewrite (Hv out He). f_equal. specialize (Hv (map v2r row) He).
    rewrite (ix_ok valid e) in Hv by (unfold nV in *; lia). cbn [bind] in Hv. rewrite znth_map_ix in Hv by (unfold nV in *; lia). cbn [bind] in Hv. unfold val1.
    pose proof (HV _ (ix_In valid e ltac:(unfold nV in *; lia))) as Re.
    rewrite (zset_Ok _ (ix valid e) v) in Hv by (rewrite zlen_map; lia).
    destruct (rsumM _ _) as [inc| | |]; cbn [bind] in *; try discriminate Hv. destruct (if ex then _ else _) as [inc'| | |]; cbn [bind] in *; try discriminate Hv.
    rewrite zset_Ok in Hv by (rewrite zlen_map; lia). injection Hv as Hv.
    assert (K : znth (lset (map v2r row) (Z.to_nat (ix valid e)) (radd (v2r mean) inc')) (ix valid e) = znth (lset (map v2r row) (Z.to_nat (ix valid e)) v) (ix valid e)) by (rewrite Hv; reflexivity).
    rewrite !znth_lset in K by (rewrite ?zlen_map; lia). rewrite Z.eqb_refl in K. injection K as K. auto. }
  destruct Cho as [F HF].
  destruct (write_at valid F (fun out e =>
      ei <- znth valid e ;;
      x <- znth (map (fun v => vsub (vk row v) mean) valid) e ;;
      inc <- rsumM nV (fun k => xk <- znth (map (fun v => vsub (vk row v) mean) valid) k ;; wk <- get2 W k e ;; ww <- znth w k ;; Ok (rmul (v2r xk) (radd wk (v2r ww)))) ;;
      inc' <- (if ex then Ok inc else d <- ens_incs lS lObs lYhat lY e ;; Ok (ens_limit inc (v2r x) (v2r (amax d)) (v2r (amin d)))) ;;
      zset out ei (radd (v2r mean) inc')) (map v2r row) NDV) as (out & E & El & _ & E2).
  { intros k Hk. rewrite zlen_map, LR. apply HV. exact Hk. }
  { intros a e He. apply HF. exact He. }
  exists out. split; [exact E|]. rewrite zlen_map in El. split; [lia|exact E2].
Qed.

(** *** finite data *)
Variables (U : list Z) (Y : Z -> Z -> Qc) (gg s o h : Z -> Qc) (xx : Z -> Qc).
Hypothesis HU : zlen U = lS.
Hypothesis Hn2 : 2 <= nV.
Hypothesis Fg : forall i, 0 <= i < lS -> znth g i = Ok (Fin (gg (ix U i))) /\ (0 < gg (ix U i))%Qc.
Hypothesis Fs : forall i, 0 <= i < lS -> znth sig i = Ok (Fin (s (ix U i))) /\ s (ix U i) <> 0%Qc.
Hypothesis Fo : forall i, 0 <= i < lS -> znth lObs i = Ok (Fin (o (ix U i))).
Hypothesis Fh : forall i, 0 <= i < lS -> znth lYhat i = Ok (Fin (h (ix U i))).
Hypothesis FY : mat lS nV lY (fun i e => Y (ix U i) e).
Hypothesis Fx : forall i, 0 <= i < nV -> znth row (ix valid i) = Ok (Fin (xx i)).
Definition rin (k : Z) : Qc := (gg k / (s k * s k))%Qc.
Notation I := (zrange 0 nV).
Notation NN := (qz (nV - 1)).
Notation pinv' := (pinv U Y rin NN).
Notation d := (fun k => o k - h k)%Qc.
Definition xb : Qc := (tot I xx / qz nV)%Qc.
Definition xd (i : Z) : Qc := (xx i - xb)%Qc.
Lemma NN_pos : (0 < NN)%Qc.
Proof. apply qz_pos. lia. Qed.
Lemma rin_pos k : In k U -> (0 < rin k)%Qc.
Proof.
  intros Hk. apply In_ix in Hk as (i & Hi & <-). rewrite HU in Hi. destruct (Fg i Hi) as [_ P]. destruct (Fs i Hi) as [_ Nz]. unfold rin, Qcdiv.
  rewrite <- (Qcmult_0_l (/ (s (ix U i) * s (ix U i)))%Qc). apply Qcmult_lt_compat_r; [|exact P]. apply inv_pos.
  destruct (Qcle_lt_or_eq _ _ (sq_nonneg (s (ix U i)))) as [H|H]; [exact H|]. exfalso. apply Nz. apply sq_zero. auto.
Qed.
(** what the inverse and the eigenvalue solver returned *)
Definition solved (P : Z -> Z -> Qc) (l : Z -> R) (v : Z -> Z -> R) : Prop :=
  (forall i j, In i I -> In j I -> tot I (fun k => P i k * pinv' k j)%Qc = unit_ i j) /\
  (forall i j, In i I -> In j I -> tot I (fun k => pinv' i k * P k j)%Qc = unit_ i j) /\
  (forall i j, In i I -> In j I -> rtot I (fun k => v k i * v k j)%R = runit i j) /\
  (forall i j, In i I -> In j I -> qr (amat NN P i j) = rtot I (fun k => v i k * l k * v j k)%R).
Definition incr (P : Z -> Z -> Qc) (l : Z -> R) (v : Z -> Z -> R) (e : Z) : R :=
  rtot I (fun k => qr (xd k) * (root nV v l k e + qr (wvec nV U Y rin P d k)))%R.
Definition stdep (e : Z) : list val := map (fun k => Fin (o k - (Y (ix U (e mod lS)) (e / lS) + h k))%Qc) U.

Lemma pinv_ok C : mat nV lS C (fun e i => Y (ix U i) e * rin (ix U i))%Qc -> exists M, ens_pinv lS nV C lY = Ok M /\ entries nV M pinv'.
Proof.
  intros MC. destruct (ens_pinv_ok lS nV lY ltac:(lia) C _ _ MC FY) as (M & EM & MM). exists M. split; [exact EM|].
  eapply mat_ext; [exact MM|]. intros i j Hi Hj. cbn beta. unfold pinv. f_equal. rewrite (tot_ix U), HU. reflexivity.
Qed.
Lemma fold_mean : forall l acc, (forall i, In i l -> 0 <= i < nV) -> fold_left vadd (map (fun i => Fin (xx i)) l) (Fin acc) = Fin (acc + tot l xx)%Qc.
Proof.
  induction l as [|i l IH]; intros acc Hl; cbn [map fold_left]. { unfold tot; cbn. f_equal. ring. }
  cbn [vadd]. rewrite IH by (intros; apply Hl; right; assumption). rewrite tot_cons. f_equal. ring.
Qed.
Lemma core_fin : (exists M A, entries nV M A /\ (forall i j, In i I -> In j I -> tot I (fun k => A i k * (pinv' k j / NN))%Qc = unit_ i j) /\ e_eig EL M = None /\
    run = Ok (map v2r row)) \/
  exists P l v, solved P l v /\ exists out, run = Ok out /\ zlen out = nE /\ (forall e, ~ In e valid -> znth out e = znth (map v2r row) e) /\
    forall e, 0 <= e < nV -> exists z, znth out (ix valid e) = Ok (RF (qr xb + z)%R) /\
      (ex = true -> z = incr P l v e) /\
      (ex = false -> RF z = ens_limit (RF (incr P l v e)) (RF (qr (xd e))) (v2r (amax (stdep e))) (v2r (amin (stdep e)))).
Proof.
  unfold core. fold nV. replace (nV =? 0) with false by lia.
  destruct (ens_c_ok lS nV g sig lY ltac:(lia) ltac:(lia) (fun i => gg (ix U i)) (fun i => s (ix U i)) (fun i e => Y (ix U i) e)) as (C & EC & MC).
  { intros i Hi. apply Fg. exact Hi. } { intros i Hi. apply Fs. exact Hi. } { exact FY. }
  rewrite EC. cbn [bind]. destruct (pinv_ok C MC) as (M & EM & MM). rewrite EM. cbn [bind].
  assert (Hreg : ~ singular nV pinv') by (apply pinv_regular; [exact NN_pos|exact rin_pos]).
  destruct (vleb (e_rcond EL M) (fz 0)) eqn:EV. { exfalso. apply Hreg. apply (ok_rcond _ HE nV M pinv' ltac:(lia) MM). exact EV. }
  destruct (ok_inv_size _ HLib nV M ltac:(lia) (proj1 MM)) as [(Pm & EP & RP)|ET].
  2:{ exfalso. apply Hreg. exact (ok_inv_sing _ HLib nV M pinv' _ ltac:(lia) MM ET). }
  rewrite EP. cbn [bind]. destruct (ok_inv _ HLib nV M pinv' Pm ltac:(lia) MM EP) as (P & MP & PL & PR).
  destruct (tab2_mat nV nV (fun i j => p <- get2 Pm i j ;; Ok (vmul (fz (nV - 1)) p)) (amat NN P) ltac:(lia) ltac:(lia)) as (A & EA & MA).
  { intros i j Hi Hj. destruct MP as [_ MP]. rewrite MP by assumption. reflexivity. }
  rewrite EA. cbn [bind].
  assert (PL' : forall i j, In i I -> In j I -> tot I (fun k => P i k * pinv' k j)%Qc = unit_ i j) by (intros i j Hi Hj; apply in_zrange in Hi; apply in_zrange in Hj; apply PL; assumption).
  assert (PR' : forall i j, In i I -> In j I -> tot I (fun k => pinv' i k * P k j)%Qc = unit_ i j) by (intros i j Hi Hj; apply in_zrange in Hi; apply in_zrange in Hj; apply PR; assumption).
  assert (Sy : symmetric nV (amat NN P)) by (eapply amat_sym; eassumption).
  destruct (e_eig EL A) as [[lam V]|] eqn:EE.
  2:{ left. exists A, (amat NN P). split; [exact MA|]. split; [|auto]. intros i j Hi Hj. rewrite <- (PL' i j Hi Hj). apply tot_ext. intros k _. unfold amat. field.
      intros E. pose proof NN_pos as H. rewrite E in H. discriminate H. }
  right. destruct (ok_eig _ HE nV A _ lam V ltac:(lia) MA Sy EE) as (l & v & Ll & El & RV & Ort & Dec).
  exists P, l, v.
  assert (Ort' : forall i j, In i I -> In j I -> rtot I (fun k => v k i * v k j)%R = runit i j) by (intros i j Hi Hj; apply in_zrange in Hi; apply in_zrange in Hj; apply Ort; assumption).
  assert (Dec' : forall i j, In i I -> In j I -> qr (amat NN P i j) = rtot I (fun k => v i k * l k * v j k)%R) by (intros i j Hi Hj; apply in_zrange in Hi; apply in_zrange in Hj; apply Dec; assumption).
  split; [repeat split; assumption|].
  assert (Psd : forall c, (0 <= rtot I (fun i => c i * rtot I (fun j => qr (amat NN P i j) * c j)))%R).
  { apply (amat_psd nV U Y rin NN NN_pos rin_pos P PR'). }
  unfold ens_update. fold nV.
  destruct (sym_root_ok nV lam V l v ltac:(lia)) as (W & EW & RW).
  { intros i Hi. split; [apply El; exact Hi|]. apply (eig_nonneg nV (fun i j => qr (amat NN P i j)) v l Ort' Dec' Psd). apply in_zrange. exact Hi. }
  { exact RV. }
  rewrite EW. cbn [bind].
  destruct (mmul_ok nV nV lS Pm C P _ ltac:(lia) ltac:(lia) MP MC) as (PC & EPC & MPC). rewrite EPC. cbn [bind].
  rewrite (mapM_ok _ (fun e => Fin (wvec nV U Y rin P d e))).
  2:{ intros e He. apply in_zrange in He. rewrite (vsumM_ok lS _ (fun i => tot I (fun j => P e j * (Y (ix U i) j * rin (ix U i))) * d (ix U i))%Qc).
      - do 2 f_equal. unfold wvec, psol. rewrite <- HU. rewrite <- (tot_ix U (fun k => tot I (fun j => P e j * (Y k j * rin k)) * d k)%Qc).
        rewrite (tot_ext U _ (fun k => tot I (fun j => P e j * (Y k j * rin k * d k)))%Qc).
        + rewrite tot_swap. apply tot_ext. intros j _. rewrite tot_mul_l. reflexivity.
        + intros k _. rewrite <- tot_mul_r. apply tot_ext. intros. ring.
      - intros i Hi. destruct MPC as [_ ->]; try assumption. rewrite Fo, Fh by exact Hi. reflexivity. }
  cbn [bind].
  assert (Exs : mapM (fun ei => znth row ei) valid = Ok (map (fun i => Fin (xx i)) I)).
  { rewrite (mapM_ok _ (vk row)) by (intros e He; apply vk_ok; rewrite LR; apply HV; exact He). f_equal. rewrite (map_ix (vk row) valid). apply map_ext_in.
    intros i Hi. apply in_zrange in Hi. unfold vk. rewrite Fx by exact Hi. reflexivity. }
  rewrite Exs. cbn [bind]. rewrite fz0, fold_mean by (intros i Hi; apply in_zrange in Hi; exact Hi).
  assert (Hq : qz nV <> 0%Qc) by (apply qz_neq0; lia).
  change (fz nV) with (Fin (qz nV)). rewrite vdiv_ok by exact Hq. replace ((0 + tot I xx) / qz nV)%Qc with xb by (unfold xb; rewrite Qcplus_0_l; reflexivity).
  rewrite map_map. cbn [v2r].
  assert (Ex : map (fun x => vsub (Fin (xx x)) (Fin xb)) I = map (fun i => Fin (xd i)) I) by (apply map_ext; reflexivity). rewrite Ex.
  assert (Zx : forall k, 0 <= k < nV -> znth (map (fun i => Fin (xd i)) I) k = Ok (Fin (xd k))) by (intros k Hk; rewrite znth_map, znth_zrange by lia; reflexivity).
  assert (Zw : forall k, 0 <= k < nV -> znth (map (fun e => Fin (wvec nV U Y rin P d e)) I) k = Ok (Fin (wvec nV U Y rin P d k))) by (intros k Hk; rewrite znth_map, znth_zrange by lia; reflexivity).
  set (lim := fun e => if ex then RF (incr P l v e) else ens_limit (RF (incr P l v e)) (RF (qr (xd e))) (v2r (amax (stdep e))) (v2r (amin (stdep e)))).
  destruct (write_at valid (fun e => radd (RF (qr xb)) (lim e)) (fun out e =>
      ei <- znth valid e ;;
      x <- znth (map (fun i => Fin (xd i)) I) e ;;
      inc <- rsumM nV (fun k => xk <- znth (map (fun i => Fin (xd i)) I) k ;; wk <- get2 W k e ;; ww <- znth (map (fun e => Fin (wvec nV U Y rin P d e)) I) k ;; Ok (rmul (v2r xk) (radd wk (v2r ww)))) ;;
      inc' <- (if ex then Ok inc else d <- ens_incs lS lObs lYhat lY e ;; Ok (ens_limit inc (v2r x) (v2r (amax d)) (v2r (amin d)))) ;;
      zset out ei (radd (RF (qr xb)) inc')) (map v2r row) NDV) as (out & E & El' & E1 & E2).
  { intros k Hk. rewrite zlen_map, LR. apply HV. exact Hk. }
  { intros a e He. fold nV in He. rewrite (ix_ok valid e) by (unfold nV in *; lia). cbn [bind]. rewrite Zx by exact He. cbn [bind].
    rewrite (rsumM_ok nV _ (fun k => qr (xd k) * (root nV v l k e + qr (wvec nV U Y rin P d k)))%R).
    2:{ intros k Hk. rewrite Zx, Zw by exact Hk. destruct RW as [_ RW]. rewrite RW by assumption. reflexivity. }
    cbn [bind]. fold (incr P l v e). unfold lim. destruct ex; [reflexivity|]. unfold ens_incs.
    destruct (div_bounds e lS nV HlS He) as [B1 B2]. destruct FY as [_ FY']. rewrite FY' by assumption. cbn [bind].
    assert (Ed : mapM (fun i => o <- znth lObs i ;; h <- znth lYhat i ;; Ok (vsub o (vadd (Fin (Y (ix U (e mod lS)) (e / lS))) h))) (zrange 0 lS) = Ok (stdep e)).
    { unfold stdep. rewrite (map_ix (fun k => Fin (o k - (Y (ix U (e mod lS)) (e / lS) + h k))%Qc) U), HU. apply mapM_ok. intros i Hi. apply in_zrange in Hi.
      rewrite Fo, Fh by exact Hi. reflexivity. }
    rewrite Ed. cbn [bind v2r]. reflexivity. }
  exists out. split; [exact E|]. rewrite zlen_map in El'. split; [lia|]. split; [exact E2|]. intros e He. rewrite E1 by exact He.
  unfold lim. destruct ex eqn:Eex.
  - exists (incr P l v e). split; [reflexivity|]. split; [reflexivity|discriminate].
  - assert (NU : U <> []) by (intros N; rewrite N, zlen_nil in HU; lia).
    destruct (amax_ok (fun k => o k - (Y (ix U (e mod lS)) (e / lS) + h k))%Qc U NU) as (hi & Ehi & _). destruct (amin_ok (fun k => o k - (Y (ix U (e mod lS)) (e / lS) + h k))%Qc U NU) as (lo & Elo & _).
    unfold stdep. rewrite Ehi, Elo. cbn [v2r].
    assert (K : exists z, ens_limit (RF (incr P l v e)) (RF (qr (xd e))) (RF (qr hi)) (RF (qr lo)) = RF z).
    { unfold ens_limit. destruct (_ && _)%bool; [eexists; reflexivity|]. destruct (_ && _)%bool; [eexists; reflexivity|]. destruct (_ && _)%bool; [eexists; reflexivity|]. destruct (_ && _)%bool; eexists; reflexivity. }
    destruct K as [z Ez]. exists z. rewrite Ez. split; [reflexivity|]. split; [discriminate|reflexivity].
Qed.
End Core.
