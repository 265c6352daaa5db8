(** Optimal interpolation at one background point: the weights. *)
From Coq Require Import Permutation.
From Verif Require Import Base QcTac ListLib M_Geo S_Geo S_Near M_OI S_OI P_Geo P_OISum P_OI P_OICell.
Local Open Scope Z_scope.

Lemma fold_dot (A B : Z -> res val) (x z : Z -> Qc) l : (forall i, In i l -> A i = Ok (Fin (x i)) /\ B i = Ok (Fin (z i))) -> forall s,
  foldM (fun acc i => a <- A i ;; b <- B i ;; Ok (vadd acc (vmul a b))) (Fin s) l = Ok (Fin (s + tot l (fun i => x i * z i))%Qc).
Proof.
  induction l as [|i l IH]; intros H s; cbn [foldM].
  - unfold tot. cbn [map fold_right]. do 2 f_equal. ring.
  - destruct (H i) as [-> ->]; [left; reflexivity|]. cbn [bind vmul vadd]. rewrite IH by (intros; apply H; right; assumption).
    rewrite tot_cons. do 2 f_equal. ring.
Qed.
Lemma fz0 : fz 0 = Fin 0. Proof. reflexivity. Qed.
Lemma vdot_ok n a b x z : (forall i, 0 <= i < n -> znth a i = Ok (Fin (x i)) /\ znth b i = Ok (Fin (z i))) ->
  vdot n a b = Ok (Fin (tot (zrange 0 n) (fun i => x i * z i)%Qc)).
Proof.
  intros H. unfold vdot. rewrite fz0. rewrite (fold_dot _ _ x z).
  - do 2 f_equal. ring.
  - intros i Hi. apply in_zrange in Hi. apply H; exact Hi.
Qed.
Lemma row_mul_ok n gv N g B : (forall i, 0 <= i < n -> znth gv i = Ok (Fin (g i))) -> entries n N B ->
  row_mul n gv N = Ok (map (fun j => Fin (tot (zrange 0 n) (fun i => g i * B i j)%Qc)) (zrange 0 n)).
Proof.
  intros Hg [_ HB]. unfold row_mul. apply mapM_ok. intros j Hj. apply in_zrange in Hj. rewrite fz0. rewrite (fold_dot _ _ g (fun i => B i j)).
  - do 2 f_equal. ring.
  - intros i Hi. apply in_zrange in Hi. split; [apply Hg; exact Hi|apply HB; assumption].
Qed.
Lemma znth_map_ix {A} (f : Z -> A) U i : 0 <= i < zlen U -> znth (map f U) i = Ok (f (ix U i)).
Proof. intros H. rewrite znth_map, (ix_ok _ _ H). reflexivity. Qed.
(** *** largest and smallest increment *)
Lemma amax_ok (f : Z -> Qc) U : U <> [] -> exists m, amax (map (fun k => Fin (f k)) U) = Fin m /\ largest U f m.
Proof.
  destruct U as [|k U]; [congruence|]. intros _. cbn [map amax].
  assert (K : forall V s, (exists j, In j V /\ f j = s) -> (forall j, In j V -> (f j <= s)%Qc) ->
    exists m, fold_left (fun m v => if vltb m v then v else m) (map (fun k => Fin (f k)) U) (Fin s) = Fin m /\ largest (V ++ U) f m).
  { induction U as [|j U IH]; intros V s H1 H2; cbn [map fold_left].
    - exists s. split; [reflexivity|]. rewrite app_nil_r. split; assumption.
    - cbn [vltb]. change (j :: U) with ([j] ++ U). rewrite app_assoc. destruct (qltb_spec s (f j)) as [H|H]; apply IH.
      + exists j. split; [apply in_or_app; cbn; auto|reflexivity].
      + intros i Hi. apply in_app_or in Hi as [Hi|[<- |[]]]; [|apply Qcle_refl]. specialize (H2 i Hi).
        apply Qclt_le_weak. eapply Qcle_lt_trans; eauto.
      + destruct H1 as (i & Hi & E). exists i. split; [apply in_or_app; auto|exact E].
      + intros i Hi. apply in_app_or in Hi as [Hi|[<- |[]]]; [auto|]. apply Qcnot_lt_le. exact H. }
  apply (K [k]).
  - exists k. cbn. auto.
  - intros j [<- |[]]. apply Qcle_refl.
Qed.
Lemma amin_ok (f : Z -> Qc) U : U <> [] -> exists m, amin (map (fun k => Fin (f k)) U) = Fin m /\ smallest U f m.
Proof.
  destruct U as [|k U]; [congruence|]. intros _. cbn [map amin].
  assert (K : forall V s, (exists j, In j V /\ f j = s) -> (forall j, In j V -> (s <= f j)%Qc) ->
    exists m, fold_left (fun m v => if vltb v m then v else m) (map (fun k => Fin (f k)) U) (Fin s) = Fin m /\ smallest (V ++ U) f m).
  { induction U as [|j U IH]; intros V s H1 H2; cbn [map fold_left].
    - exists s. split; [reflexivity|]. rewrite app_nil_r. split; assumption.
    - cbn [vltb]. change (j :: U) with ([j] ++ U). rewrite app_assoc. destruct (qltb_spec (f j) s) as [H|H]; apply IH.
      + exists j. split; [apply in_or_app; cbn; auto|reflexivity].
      + intros i Hi. apply in_app_or in Hi as [Hi|[<- |[]]]; [|apply Qcle_refl]. specialize (H2 i Hi).
        apply Qclt_le_weak. eapply Qclt_le_trans; eauto.
      + destruct H1 as (i & Hi & E). exists i. split; [apply in_or_app; auto|exact E].
      + intros i Hi. apply in_app_or in Hi as [Hi|[<- |[]]]; [auto|]. apply Qcnot_lt_le. exact H. }
  apply (K [k]).
  - exists k. cbn. auto.
  - intros j [<- |[]]. apply Qcle_refl.
Qed.
(** what the limiting does to a finite increment *)
Lemma limit_fin x hi lo : exists z, limit (Fin x) (Fin hi) (Fin lo) = Fin z.
Proof.
  unfold limit. destruct (_ && _)%bool; [eauto|]. destruct (_ && _)%bool; [eauto|]. destruct (_ && _)%bool; [eauto|]. destruct (_ && _)%bool; eauto.
Qed.
Lemma limit_limited x hi lo z : (lo <= hi)%Qc -> hi <> 0%Qc -> lo <> 0%Qc -> limit (Fin x) (Fin hi) (Fin lo) = Fin z -> limited lo hi x z.
Proof.
  intros H0 H1 H2 E. unfold limit in E. rewrite fz0 in E. cbn [vltb] in E.
  assert (H1' : (hi < 0 \/ 0 < hi)%Qc) by (destruct (Qc_dec hi 0) as [[|]|]; auto; contradiction).
  assert (H2' : (lo < 0 \/ 0 < lo)%Qc) by (destruct (Qc_dec lo 0) as [[|]|]; auto; contradiction).
  unfold limited.
  destruct (qltb_spec 0 hi), (qltb_spec hi x), (qltb_spec hi 0), (qltb_spec 0 x), (qltb_spec lo 0), (qltb_spec x lo), (qltb_spec 0 lo), (qltb_spec x 0);
    cbn [andb] in E; injection E as <-; (split; [|split]); intros; first [reflexivity | exfalso; qlra | apply Qcle_antisym; qlra | exfalso; destruct H1', H2'; qlra].
Qed.

Section Solve.
Variables (L : lib) (S : sfn) (pts : points) (pobs pratios pbg : vec) (nS : Z) (ex : bool)
  (loc : point -> val) (rho bg : point -> point -> val) (r : Z -> Z -> Qc) (ratio g o yb : Z -> Qc) (p1 : point).
Hypothesis HLib : lib_ok L.
Hypothesis HS : behaves S loc rho bg.
Let pvec := map (ptk pts) (zrange 0 nS).
Variable U : list Z.
Hypothesis HU : forall k, In k U -> 0 <= k < nS.
Hypothesis ND : NoDup U.
Hypothesis HR : forall k, In k U -> znth pratios k = Ok (Fin (ratio k)).
Hypothesis HO : forall k, In k U -> znth pobs k = Ok (Fin (o k)).
Hypothesis HY : forall k, In k U -> znth pbg k = Ok (Fin (yb k)).
Hypothesis Hr : forall k j, In k U -> In j U -> rho (ptk pts k) (ptk pts j) = Fin (r k j).
Hypothesis Hg : forall k, In k U -> bg p1 (ptk pts k) = Fin (g k).
Let n := zlen U.
Definition amat (i j : Z) : Qc := (r (ix U i) (ix U j) + (if i =? j then ratio (ix U i) else 0))%Qc.

Lemma system_ok : exists M, system S pvec pratios U = Ok M /\ entries n M amat.
Proof.
  destruct HS as (S1 & S2 & S3).
  assert (E : system S pvec pratios U = Ok (map (fun i => map (fun j => Fin (amat i j)) (zrange 0 n)) (zrange 0 n))).
  { unfold system. apply mapM_ok. intros i Hi. apply in_zrange in Hi. rewrite (ix_ok U i Hi). cbn [bind].
    pose proof (ix_In U i Hi) as HiU. rewrite (HR _ HiU). cbn [bind]. unfold pvec. rewrite znth_pvec by (apply HU; exact HiU). cbn [bind].
    rewrite (mapM_ok _ (ptk pts)) by (intros k Hk; apply znth_pvec; apply HU; exact Hk). cbn [bind]. rewrite S2. cbn [bind]. rewrite map_map.
    apply mapM_ok. intros j Hj. apply in_zrange in Hj. rewrite znth_map_ix by exact Hj. cbn [bind].
    rewrite Hr by (try apply ix_In; assumption). unfold amat. destruct (i =? j); rewrite ?fz0; reflexivity. }
  rewrite E. eexists. split; [reflexivity|]. pose proof (zlen_nonneg U). split; [apply rect_map_zrange; unfold n; lia|].
  intros i j Hi Hj. rewrite get2_map_zrange by assumption. reflexivity.
Qed.
Lemma finish_ok b v res : U <> [] ->
  finish L S pvec pobs pratios pbg ex (Fin b) v U (map (fun k => bg p1 (ptk pts k)) U) = Ok res ->
  exists w inc z, weights U r ratio g w /\ (forall w', weights U r ratio g w' -> forall k, In k U -> w' k = w k) /\
    inc = tot U (fun k => w k * (o k - yb k))%Qc /\
    (ex = true -> z = inc) /\
    (ex = false -> exists lo hi, smallest U (fun k => o k - yb k)%Qc lo /\ largest U (fun k => o k - yb k)%Qc hi /\ limit (Fin inc) (Fin hi) (Fin lo) = Fin z) /\
    res = (Fin (b + z)%Qc, vmul v (Fin (1 - tot U (fun k => w k * g k))%Qc)).
Proof.
  intros HN H. unfold finish in H.
  assert (Hn : 0 < n). { unfold n. destruct U; [congruence|]. rewrite zlen_cons. pose proof (zlen_nonneg l). lia. }
  fold n in H. replace (n =? 0) with false in H by lia.
  destruct system_ok as (M & EM & EntM). rewrite EM in H. cbn [bind] in H.
  rewrite (mapM_ok (fun k => znth pobs k) (fun k => Fin (o k)) U HO) in H. cbn [bind] in H. rewrite (mapM_ok (fun k => znth pbg k) (fun k => Fin (yb k)) U HY) in H. cbn [bind] in H.
  apply bind_Ok in H as (N & EN & H). destruct (ok_inv _ HLib n M amat N Hn EntM EN) as (B & EB & BL & BR).
  rewrite (row_mul_ok n _ N (fun i => g (ix U i)) B) in H; [|intros i Hi; rewrite znth_map_ix by exact Hi; rewrite Hg by (apply ix_In; exact Hi); reflexivity|exact EB].
  cbn [bind] in H. fold (xsol n B (fun i => g (ix U i))) in H.
  set (x := fun j => tot (zrange 0 n) (fun i => g (ix U i) * B i j)%Qc) in H.
  assert (Ed : mapM (fun i => x <- znth (map (fun k => Fin (o k)) U) i ;; z <- znth (map (fun k => Fin (yb k)) U) i ;; Ok (vsub x z)) (zrange 0 n)
     = Ok (map (fun k => Fin (o k - yb k)%Qc) U)).
  { rewrite (map_ix (fun k => Fin (o k - yb k)%Qc) U). apply mapM_ok. intros i Hi. apply in_zrange in Hi. rewrite !znth_map_ix by exact Hi. reflexivity. }
  rewrite Ed in H. cbn [bind] in H.
  assert (Zx : forall i, 0 <= i < n -> znth (map (fun j => Fin (x j)) (zrange 0 n)) i = Ok (Fin (x i))).
  { intros i Hi. rewrite znth_map, znth_zrange by lia. reflexivity. }
  rewrite (vdot_ok n _ _ x (fun i => o (ix U i) - yb (ix U i))%Qc) in H.
  2:{ intros i Hi. split; [apply Zx; exact Hi|rewrite znth_map_ix by exact Hi; reflexivity]. }
  cbn [bind] in H.
  rewrite (vdot_ok n _ _ x (fun i => g (ix U i))) in H.
  2:{ intros i Hi. split; [apply Zx; exact Hi|rewrite znth_map_ix by exact Hi; rewrite Hg by (apply ix_In; exact Hi); reflexivity]. }
  cbn [bind] in H.
  destruct (by_obs U x ND) as [w Hw]. fold n in Hw.
  assert (Tw : forall f, tot U (fun k => w k * f k)%Qc = tot (zrange 0 n) (fun i => x i * f (ix U i))%Qc).
  { intros f. rewrite tot_ix. apply tot_ext. intros i Hi. apply in_zrange in Hi. rewrite Hw by exact Hi. reflexivity. }
  assert (Aeq : forall i l, 0 <= i < n -> 0 <= l < n -> (r (ix U i) (ix U l) + (if ix U i =? ix U l then ratio (ix U i) else 0))%Qc = amat i l).
  { intros i l Hi Hl. unfold amat. f_equal. destruct (Z.eqb_spec i l) as [-> |E]; [rewrite Z.eqb_refl; reflexivity|].
    destruct (Z.eqb_spec (ix U i) (ix U l)) as [E'|_]; [|reflexivity]. exfalso. apply E. eapply ix_inj; eauto. }
  set (inc := tot U (fun k => w k * (o k - yb k))%Qc).
  assert (Einc : tot (zrange 0 n) (fun i => x i * (o (ix U i) - yb (ix U i)))%Qc = inc) by (unfold inc; rewrite Tw; reflexivity).
  rewrite Einc in H.
  assert (Ea : tot (zrange 0 n) (fun i => x i * g (ix U i))%Qc = tot U (fun k => w k * g k)%Qc) by (rewrite Tw; reflexivity).
  rewrite Ea in H.
  destruct (amax_ok (fun k => o k - yb k)%Qc U HN) as (hi & Ehi & Hhi). destruct (amin_ok (fun k => o k - yb k)%Qc U HN) as (lo & Elo & Hlo).
  rewrite Ehi, Elo in H. destruct (limit_fin inc hi lo) as [zl Ezl]. rewrite Ezl in H.
  exists w, inc, (if ex then inc else zl).
  split; [|split; [|split; [reflexivity|split; [|split]]]].
  - intros j Hj. destruct (In_ix U j Hj) as (l & Hl & <-). rewrite (Tw (fun k => r k (ix U l) + (if k =? ix U l then ratio k else 0))%Qc).
    rewrite (tot_ext _ _ (fun i => x i * amat i l)%Qc).
    2:{ intros i Hi. apply in_zrange in Hi. rewrite <- (Aeq i l) by assumption. reflexivity. }
    apply (xsol_solves n amat B (fun i => g (ix U i)) BL l Hl).
  - intros w' Hw' k Hk. destruct (In_ix U k Hk) as (i & Hi & <-). rewrite Hw by exact Hi.
    apply (xsol_unique n amat B (fun i => g (ix U i)) BR (fun i => w' (ix U i))); [|exact Hi].
    intros l Hl. rewrite <- (Hw' (ix U l) (ix_In U l Hl)). rewrite (tot_ix U). fold n. apply tot_ext. intros i' Hi'. apply in_zrange in Hi'.
    rewrite Aeq by assumption. reflexivity.
  - intros ->. reflexivity.
  - intros ->. exists lo, hi. auto.
  - destruct ex; injection H as <-; reflexivity.
Qed.
End Solve.
