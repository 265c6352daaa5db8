(** Order properties of statistics and quantiles (C01, C03, C04, C05). *)
From Verif Require Import Base ListLib M_Stat S_Stat P_Stat.
From Coq Require Import Qround Lqa.

Lemma zlen_pos {A} (l : list A) : l <> [] -> 0 < zlen l.
Proof. destruct l; [congruence|]. rewrite zlen_cons. pose proof (zlen_nonneg l). lia. Qed.
Lemma qle_lt_or_eq (x y : Qc) : (x <= y)%Qc -> (x < y)%Qc \/ x = y.
Proof. intros H. destruct (Qclt_le_dec x y); [left; assumption|right; apply Qcle_antisym; assumption]. Qed.

Section Lerp.
Variable s : list Qc.
Hypothesis Hs : qsorted s.
(** a position inside [0, N-1] lies between two in-range neighbouring indices, or is integral *)
Lemma lerp_bounds pos : (0 <= pos <= qz (zlen s - 1))%Qc ->
  let k := Qfloor pos in let k' := Qceiling pos in
  0 <= k /\ k <= k' /\ k' <= zlen s - 1 /\ k' <= k + 1 /\
  (qz k <= pos <= qz k')%Qc /\
  (qnth s k <= lerp_at s pos)%Qc /\ (lerp_at s pos <= qnth s k')%Qc.
Proof.
  intros [H0 H1] k k'. 
  assert (Hf0 : 0 <= k). { unfold k. rewrite <- (qfloor_qz 0). apply qfloor_mono. rewrite qz_0. exact H0. }
  assert (Hf1 : k <= zlen s - 1). { unfold k. rewrite <- (qfloor_qz (zlen s - 1)). apply qfloor_mono. exact H1. }
  pose proof (qfloor_le pos) as F1. pose proof (qlt_floor pos) as F2. fold k in F1, F2.
  unfold k'. rewrite qceil_spec. fold k. destruct (qeqb_spec pos (qz k)) as [E|E].
  - assert (lerp_at s pos = qnth s k) as ->. { rewrite E. apply lerp_at_qz. }
    assert (qnth s k <= qnth s k)%Qc by apply Qcle_refl. rewrite <- E.
    assert (pos <= pos)%Qc by apply Qcle_refl. repeat (split; [first [lia | assumption | split; assumption]|]). assumption.
  - assert (Hk : k + 1 <= zlen s - 1).
    { assert (qz k < qz (zlen s - 1))%Qc as A.
      { destruct (Qclt_le_dec (qz k) (qz (zlen s - 1))) as [L|L]; [exact L|].
        exfalso. apply E. apply Qcle_antisym; qlra. }
      apply (proj1 (qz_lt _ _)) in A. lia. }
    assert (M : (qnth s k <= qnth s (k + 1))%Qc) by (apply qnth_mono; auto; lia).
    assert (L1 : (qnth s k <= lerp_at s pos)%Qc).
    { unfold lerp_at. fold k. assert (0 <= (pos - qz k) * (qnth s (k + 1) - qnth s k))%Qc by qnra. qlra. }
    assert (L2 : (lerp_at s pos <= qnth s (k + 1))%Qc).
    { unfold lerp_at. fold k. assert (0 <= (1 - (pos - qz k)) * (qnth s (k + 1) - qnth s k))%Qc by qnra.
      qunfold. qpush. qlit. lra. }
    assert (L3 : (pos <= qz (k + 1))%Qc). { rewrite qz_add, qz_1. qlra. }
    repeat (split; [first [lia | assumption | split; assumption]|]). assumption.
Qed.
Lemma lerp_mono p1 p2 : (0 <= p1)%Qc -> (p1 <= p2)%Qc -> (p2 <= qz (zlen s - 1))%Qc -> (lerp_at s p1 <= lerp_at s p2)%Qc.
Proof.
  intros H0 H H1.
  destruct (lerp_bounds p1) as (A1 & A2 & A3 & A4 & A5 & A6 & A7). { split; [exact H0|]. eapply Qcle_trans; eauto. }
  destruct (lerp_bounds p2) as (B1 & B2 & B3 & B4 & B5 & B6 & B7). { split; [eapply Qcle_trans; eauto|exact H1]. }
  pose proof (qfloor_mono _ _ H) as HF. destruct (Z.eq_dec (Qfloor p1) (Qfloor p2)) as [E|E].
  - unfold lerp_at. rewrite <- E. destruct (qle_lt_or_eq _ _ H) as [L|<-]; [|apply Qcle_refl].
    assert (Hk : Qfloor p1 + 1 <= zlen s - 1).
    { assert (qz (Qfloor p1) < qz (zlen s - 1))%Qc as A by (destruct A5; qlra). apply (proj1 (qz_lt _ _)) in A. lia. }
    assert (M : (qnth s (Qfloor p1) <= qnth s (Qfloor p1 + 1))%Qc) by (apply qnth_mono; auto; lia).
    assert (0 <= (p2 - p1) * (qnth s (Qfloor p1 + 1) - qnth s (Qfloor p1)))%Qc by qnra.
    qunfold; qpush; qlit; lra.
  - eapply Qcle_trans; [exact A7|]. eapply Qcle_trans; [|exact B6]. apply qnth_mono; auto; lia.
Qed.
End Lerp.

Lemma quantile_pos_bounds q N : (0 <= q <= 1)%Qc -> 1 <= N -> (0 <= q * qz (N - 1) <= qz (N - 1))%Qc.
Proof.
  intros [H0 H1] HN. assert (0 <= qz (N - 1))%Qc. { change 0%Qc with (qz 0). apply qz_le. lia. } split; qnra.
Qed.

(** calc_quantile meets the specification *)
Lemma calc_quantile_is_quantile a q : (0 <= q <= 1)%Qc -> finites a <> [] ->
  exists r, calc_quantile a (Fin q) = Ok (Fin r) /\ is_quantile (finites a) q r.
Proof.
  intros Hq Hne. rewrite calc_quantile_value by exact Hq. destruct (finites a) as [|x l]; [congruence|].
  eexists. split; [reflexivity|]. eexists. split; [apply perm_qsort|]. split; [apply sorted_qsort|reflexivity].
Qed.
Lemma is_quantile_unique l q r r' : is_quantile l q r -> is_quantile l q r' -> r = r'.
Proof.
  intros (s & P & S & ->) (s' & P' & S' & ->). f_equal. apply sorted_unique; auto.
  rewrite P, P'. reflexivity.
Qed.
Lemma is_quantile_between l q r lo hi : (0 <= q <= 1)%Qc -> is_quantile l q r -> is_min l lo -> is_max l hi ->
  (lo <= r <= hi)%Qc.
Proof.
  intros Hq (s & P & S & ->) [Hlo Hlo'] [Hhi Hhi'].
  assert (Hne : l <> []) by (intros ->; destruct Hlo).
  pose proof (zlen_pos l Hne) as HN. rewrite <- (zlen_perm _ _ P) in *.
  destruct (lerp_bounds s S (q * qz (zlen s - 1))%Qc) as (A1 & A2 & A3 & A4 & A5 & A6 & A7).
  { apply quantile_pos_bounds; [exact Hq|lia]. }
  split.
  - eapply Qcle_trans; [|exact A6]. apply Hlo'. eapply Permutation_in; [exact P|]. apply qnth_In. lia.
  - eapply Qcle_trans; [exact A7|]. apply Hhi'. eapply Permutation_in; [exact P|]. apply qnth_In. lia.
Qed.
Lemma is_quantile_mono l q q' r r' : (0 <= q)%Qc -> (q <= q')%Qc -> (q' <= 1)%Qc -> l <> [] ->
  is_quantile l q r -> is_quantile l q' r' -> (r <= r')%Qc.
Proof.
  intros H0 H H1 Hne (s & P & S & ->) (s' & P' & S' & ->).
  assert (s' = s) as ->. { apply sorted_unique; auto. rewrite P, P'. reflexivity. }
  pose proof (zlen_pos l Hne) as HN. rewrite <- (zlen_perm _ _ P) in *.
  assert (0 <= qz (zlen s - 1))%Qc. { change 0%Qc with (qz 0). apply qz_le. lia. }
  apply lerp_mono; [exact S| | |]; qnra.
Qed.
Lemma is_quantile_0 l r : l <> [] -> is_quantile l 0 r -> is_min l r.
Proof.
  intros Hne (s & P & S & ->). rewrite Qcmult_0_l. change 0%Qc with (qz 0). rewrite lerp_at_qz.
  eapply is_min_perm; [exact P|]. apply sorted_min; [exact S|]. intros ->. apply Permutation_nil in P. congruence.
Qed.
Lemma is_quantile_1 l r : l <> [] -> is_quantile l 1 r -> is_max l r.
Proof.
  intros Hne (s & P & S & ->). rewrite Qcmult_1_l, lerp_at_qz. rewrite <- (zlen_perm _ _ P).
  eapply is_max_perm; [exact P|]. apply sorted_max; [exact S|]. intros ->. apply Permutation_nil in P. congruence.
Qed.

(** C01 *)
Lemma calc_quantile_perm a b q : Permutation (finites a) (finites b) -> calc_quantile a q = calc_quantile b q.
Proof.
  intros P. destruct q as [| | |q].
  1-3: unfold calc_quantile; destruct (vltb _ _ || vltb _ _); reflexivity.
  destruct (qleb_spec 0 q) as [H0|H0]; [destruct (qleb_spec q 1) as [H1|H1]|].
  - rewrite !calc_quantile_value by (split; assumption). rewrite (qsort_perm_eq _ _ P), (zlen_perm _ _ P).
    destruct (finites a), (finites b); try reflexivity;
      [apply Permutation_nil in P|apply Permutation_sym, Permutation_nil in P]; discriminate.
  - unfold calc_quantile. cbn. destruct (qltb_spec q (qz 0)), (qltb_spec (qz 1) q); try reflexivity.
    exfalso. rewrite qz_1 in *. qlra.
  - unfold calc_quantile. cbn. destruct (qltb_spec q (qz 0)), (qltb_spec (qz 1) q); try reflexivity.
    exfalso. rewrite qz_0 in *. qlra.
Qed.
Lemma match_perm {A B} (l m : list A) (x y : B) : Permutation l m -> (if l then x else y) = (if m then x else y).
Proof.
  intros P. destruct l, m; try reflexivity;
    [apply Permutation_nil in P|apply Permutation_sym, Permutation_nil in P]; discriminate.
Qed.
Lemma calc_statistic_perm E a b st : stat_listed st -> Permutation (finites a) (finites b) ->
  calc_statistic E a st = calc_statistic E b st.
Proof.
  intros Hst P. unfold stat_listed in Hst. decompose [or] Hst; subst.
  - rewrite !calc_mean, (qmean_perm _ _ P). f_equal. apply match_perm; exact P.
  - rewrite !calc_sum, (qsum_perm _ _ P). f_equal. apply match_perm; exact P.
  - rewrite !calc_count. unfold qlen. rewrite (zlen_perm _ _ P). reflexivity.
  - apply calc_quantile_perm; exact P.
  - apply calc_quantile_perm; exact P.
  - apply calc_quantile_perm; exact P.
  - rewrite !calc_var_std by auto. rewrite (qvar_perm _ _ P). f_equal. apply match_perm; exact P.
  - rewrite !calc_var_std by auto. rewrite (qvar_perm _ _ P). f_equal. apply match_perm; exact P.
Qed.
Lemma half_unit : (0 <= Q2Qc (1 # 2) <= 1)%Qc. Proof. split; qlra. Qed.
Lemma calc_statistic_ok E a st : stat_listed st ->
  exists v, calc_statistic E a st = Ok v /\
    (finites a = [] -> v = if stat_eqb st Count then fz 0 else MV) /\ (finites a <> [] -> is_valid v = true).
Proof.
  assert (V : (0 <= 0 <= 1)%Qc /\ (0 <= 1 <= 1)%Qc) by (split; split; qlra). destruct V as [V0 V1].
  intros Hst. unfold stat_listed in Hst. decompose [or] Hst; subst.
  - rewrite calc_mean. eexists; split; [reflexivity|]. destruct (finites a); split; intros; congruence || reflexivity.
  - rewrite calc_sum. eexists; split; [reflexivity|]. destruct (finites a); split; intros; congruence || reflexivity.
  - rewrite calc_count. eexists; split; [reflexivity|]. split; [intros ->; reflexivity|reflexivity].
  - change (calc_statistic E a Min) with (calc_quantile a (Fin 0%Qc)). rewrite calc_quantile_value by exact V0.
    eexists; split; [reflexivity|]. destruct (finites a); split; intros; congruence || reflexivity.
  - change (calc_statistic E a Max) with (calc_quantile a (Fin 1%Qc)). rewrite calc_quantile_value by exact V1.
    eexists; split; [reflexivity|]. destruct (finites a); split; intros; congruence || reflexivity.
  - change (calc_statistic E a Median) with (calc_quantile a (Fin (Q2Qc (1#2)))). rewrite calc_quantile_value by exact half_unit.
    eexists; split; [reflexivity|]. destruct (finites a); split; intros; congruence || reflexivity.
  - rewrite calc_var_std by auto. eexists; split; [reflexivity|]. destruct (finites a); split; intros; congruence || reflexivity.
  - rewrite calc_var_std by auto. eexists; split; [reflexivity|]. destruct (finites a); split; intros; try congruence; try reflexivity.
    cbn. match goal with |- context [qltb ?x ?y] => destruct (qltb_spec x y) as [L|L] end; [|reflexivity].
    exfalso. match goal with H : (qvar ?l < 0)%Qc |- _ => pose proof (qvar_nonneg l) end. qlra.
Qed.

(** C03 *)
Lemma calc_min E a : finites a <> [] -> exists r, calc_statistic E a Min = Ok (Fin r) /\ is_min (finites a) r.
Proof.
  intros H. destruct (calc_quantile_is_quantile a 0%Qc) as (r & R & Q); [split; qlra|exact H|].
  exists r. split; [exact R|]. apply is_quantile_0; assumption.
Qed.
Lemma calc_max E a : finites a <> [] -> exists r, calc_statistic E a Max = Ok (Fin r) /\ is_max (finites a) r.
Proof.
  intros H. destruct (calc_quantile_is_quantile a 1%Qc) as (r & R & Q); [split; qlra|exact H|].
  exists r. split; [exact R|]. apply is_quantile_1; assumption.
Qed.
Lemma filter_perm {A} (f : A -> bool) l m : Permutation l m -> Permutation (filter f l) (filter f m).
Proof.
  induction 1 as [|x l m H IH|x y l|l m n H1 IH1 H2 IH2]; cbn; auto.
  - destruct (f x); auto.
  - destruct (f x), (f y); auto. constructor.
  - etransitivity; eauto.
Qed.
Lemma filter_all {A} (f : A -> bool) l : (forall x, In x l -> f x = true) -> filter f l = l.
Proof.
  induction l as [|x l IH]; intros H; cbn; [reflexivity|]. rewrite H by (left; reflexivity).
  f_equal. apply IH. intros; apply H; right; assumption.
Qed.
Lemma zlen_firstn {A} (l : list A) k : 0 <= k <= zlen l -> zlen (firstn (Z.to_nat k) l) = k.
Proof. unfold zlen. intros H. rewrite firstn_length. lia. Qed.
Lemma zlen_skipn {A} (l : list A) k : 0 <= k <= zlen l -> zlen (skipn (Z.to_nat k) l) = zlen l - k.
Proof. unfold zlen. intros H. rewrite skipn_length. lia. Qed.
Lemma znth_firstn {A} (l : list A) k i : i < k -> znth (firstn (Z.to_nat k) l) i = znth l i.
Proof.
  intros H. unfold znth. destruct (i <? 0) eqn:E; [reflexivity|].
  assert (G : forall (n m : nat) (l : list A), (m < n)%nat -> nth_error (firstn n l) m = nth_error l m).
  { clear. induction n as [|n IH]; intros m l H; [lia|]. destruct l as [|x l]; [destruct m; reflexivity|].
    destruct m as [|m]; cbn; [reflexivity|]. apply IH; lia. }
  rewrite G by lia. reflexivity.
Qed.
Lemma znth_skipn {A} (l : list A) k i : 0 <= k -> 0 <= i -> znth (skipn (Z.to_nat k) l) i = znth l (k + i).
Proof.
  intros Hk H. unfold znth. replace (i <? 0) with false by lia. replace (k + i <? 0) with false by lia.
  assert (G : forall (n m : nat) (l : list A), nth_error (skipn n l) m = nth_error l (n + m)).
  { clear. induction n as [|n IH]; intros m l; [reflexivity|]. destruct l as [|x l]; [destruct m; reflexivity|]. cbn. apply IH. }
  rewrite G. replace (Z.to_nat (k + i)) with (Z.to_nat k + Z.to_nat i)%nat by lia. reflexivity.
Qed.
Lemma count_le_ge s x k : qsorted s -> 0 <= k < zlen s -> (qnth s k <= x)%Qc -> k + 1 <= count_le s x.
Proof.
  intros S Hk H. unfold count_le. rewrite <- (firstn_skipn (Z.to_nat (k + 1)) s), filter_app, zlen_app.
  rewrite filter_all.
  - rewrite zlen_firstn by lia. pose proof (zlen_nonneg (filter (fun y => qleb y x) (skipn (Z.to_nat (k + 1)) s))). lia.
  - intros y Hy. apply In_znth in Hy as [i Hi]. pose proof (znth_range _ _ _ Hi) as R.
    rewrite zlen_firstn in R by lia. rewrite znth_firstn in Hi by lia. rewrite qnth_znth in Hi by lia.
    injection Hi as <-. destruct (qleb_spec (qnth s i) x) as [L|L]; [reflexivity|]. exfalso. apply L.
    eapply Qcle_trans; [|exact H]. apply qnth_mono; auto; lia.
Qed.
Lemma count_ge_ge s x k : qsorted s -> 0 <= k < zlen s -> (x <= qnth s k)%Qc -> zlen s - k <= count_ge s x.
Proof.
  intros S Hk H. unfold count_ge. rewrite <- (firstn_skipn (Z.to_nat k) s), filter_app, !zlen_app.
  rewrite (filter_all _ (skipn _ _)).
  - rewrite zlen_skipn, zlen_firstn by lia. pose proof (zlen_nonneg (filter (fun y => qleb x y) (firstn (Z.to_nat k) s))). lia.
  - intros y Hy. apply In_znth in Hy as [i Hi]. pose proof (znth_range _ _ _ Hi) as R.
    rewrite zlen_skipn in R by lia. rewrite znth_skipn in Hi by lia. rewrite qnth_znth in Hi by lia.
    injection Hi as <-. destruct (qleb_spec x (qnth s (k + i))) as [L|L]; [reflexivity|]. exfalso. apply L.
    eapply Qcle_trans; [exact H|]. apply qnth_mono; auto; lia.
Qed.
Lemma calc_median E a : finites a <> [] ->
  exists m, calc_statistic E a Median = Ok (Fin m) /\
    (forall lo hi, is_min (finites a) lo -> is_max (finites a) hi -> (lo <= m <= hi)%Qc) /\
    zlen (finites a) <= 2 * count_le (finites a) m /\ zlen (finites a) <= 2 * count_ge (finites a) m.
Proof.
  intros H. destruct (calc_quantile_is_quantile a (Q2Qc (1#2))) as (m & R & Q); [exact half_unit|exact H|].
  exists m. split; [exact R|]. split.
  { intros lo hi Hlo Hhi. eapply is_quantile_between; eauto. exact half_unit. }
  set (l := finites a) in *. destruct Q as (s & P & S & ->).
  pose proof (zlen_pos l H) as HN. 
  assert (C1 : count_le l (lerp_at s (Q2Qc (1 # 2) * qz (zlen l - 1))) = count_le s (lerp_at s (Q2Qc (1 # 2) * qz (zlen l - 1)))).
  { unfold count_le. apply zlen_perm, filter_perm. symmetry; exact P. }
  assert (C2 : count_ge l (lerp_at s (Q2Qc (1 # 2) * qz (zlen l - 1))) = count_ge s (lerp_at s (Q2Qc (1 # 2) * qz (zlen l - 1)))).
  { unfold count_ge. apply zlen_perm, filter_perm. symmetry; exact P. }
  rewrite C1, C2. rewrite <- (zlen_perm _ _ P) in *. set (pos := (Q2Qc (1 # 2) * qz (zlen s - 1))%Qc) in *.
  destruct (lerp_bounds s S pos) as (A1 & A2 & A3 & A4 & A5 & A6 & A7).
  { apply quantile_pos_bounds; [exact half_unit|lia]. }
  assert (D : ((1 + 1) * pos = qz (zlen s - 1))%Qc). { unfold pos. qlra. }
  pose proof (qlt_floor pos) as F1.
  assert (G1 : zlen s - 1 < 2 * (Qfloor pos + 1)).
  { apply qz_lt. rewrite qz_mul, qz_add, qz_1, <- D. change (qz 2) with (1 + 1)%Qc. qlra. }
  assert (G2 : 2 * Qceiling pos <= zlen s).
  { assert (2 * Qceiling pos < zlen s - 1 + 2); [|lia]. apply qz_lt. rewrite qz_mul, qz_add, <- D. change (qz 2) with (1 + 1)%Qc.
    assert (qz (Qceiling pos) - 1 < pos)%Qc; [|qlra].
    unfold Qclt. rewrite this_sub, this_qz. pose proof (Qceiling_lt pos) as X.
    unfold Z.sub in X. rewrite inject_Z_plus in X. exact X. }
  pose proof (count_le_ge s (lerp_at s pos) (Qfloor pos) S ltac:(lia) A6).
  pose proof (count_ge_ge s (lerp_at s pos) (Qceiling pos) S ltac:(lia) A7). lia.
Qed.

(** C05 *)
Lemma match_ne {A B} (l : list A) (x y : B) : l <> [] -> (if l then x else y) = y.
Proof. destruct l; congruence. Qed.
Lemma finites_map_scale a b v : finites (map (scale_val a b) v) = map (fun x => a * x + b)%Qc (finites v).
Proof. induction v as [|x v IH]; [reflexivity|]. destruct x; cbn; congruence. Qed.
Lemma sorted_map_scale a b s : (0 < a)%Qc -> qsorted s -> qsorted (map (fun x => a * x + b)%Qc s).
Proof.
  intros Ha H. unfold qsorted in *. induction H as [|x l H IH F]; cbn; constructor; auto.
  apply Forall_forall. intros y Hy. apply in_map_iff in Hy as (z & <- & Hz).
  rewrite Forall_forall in F. specialize (F z Hz). qnra.
Qed.
Lemma qnth_map (f : Qc -> Qc) s k : 0 <= k < zlen s -> qnth (map f s) k = f (qnth s k).
Proof.
  intros H. assert (E : znth (map f s) k = Ok (f (qnth s k))). { rewrite znth_map, qnth_znth by exact H. reflexivity. }
  rewrite qnth_znth in E by (rewrite zlen_map; exact H). congruence.
Qed.
Lemma lerp_scale a b s pos : (0 <= pos <= qz (zlen s - 1))%Qc -> qsorted s ->
  lerp_at (map (fun x => a * x + b)%Qc s) pos = (a * lerp_at s pos + b)%Qc.
Proof.
  intros H S. destruct (lerp_bounds s S pos H) as (A1 & A2 & A3 & A4 & A5 & A6 & A7).
  unfold lerp_at. destruct (Z.eq_dec (Qceiling pos) (Qfloor pos)) as [E|E].
  - rewrite E in A5. assert (pos = qz (Qfloor pos)) as Ep by (apply Qcle_antisym; destruct A5; assumption).
    assert (pos - qz (Qfloor pos) = 0)%Qc as -> by (rewrite Ep at 1; ring).
    rewrite qnth_map by lia. ring.
  - rewrite !qnth_map by lia. ring.
Qed.
Lemma calc_quantile_scale a b v q : (0 < a)%Qc -> (0 <= q <= 1)%Qc ->
  calc_quantile (map (scale_val a b) v) (Fin q) =
  match calc_quantile v (Fin q) with Ok r => Ok (scale_val a b r) | e => e end.
Proof.
  intros Ha Hq. rewrite !calc_quantile_value by exact Hq. rewrite finites_map_scale.
  destruct (finites v) as [|x l] eqn:E; [reflexivity|]. rewrite <- E.
  rewrite (match_ne (map _ _)) by (rewrite E; discriminate).
  rewrite zlen_map. cbn [scale_val]. do 2 f_equal.
  assert (qsort (map (fun x => a * x + b)%Qc (finites v)) = map (fun x => a * x + b)%Qc (qsort (finites v))) as ->.
  { apply sorted_unique; [|apply sorted_qsort|apply sorted_map_scale; [exact Ha|apply sorted_qsort]].
    rewrite perm_qsort. apply Permutation_map. symmetry. apply perm_qsort. }
  apply lerp_scale; [|apply sorted_qsort]. rewrite zlen_qsort.
  apply quantile_pos_bounds; [exact Hq|]. assert (0 < zlen (finites v)) by (apply zlen_pos; congruence). lia.
Qed.

Lemma qinsert_le_hd x s : qsorted (x :: s) -> qinsert x s = x :: s.
Proof.
  intros H. destruct s as [|y s]; [reflexivity|]. apply StronglySorted_inv in H as [_ H]. inversion H; subst.
  cbn. destruct (qleb_spec x y); [reflexivity|contradiction].
Qed.
Lemma Forall2_qinsert s : forall t x y, qsorted s -> qsorted t -> Forall2 Qcle s t -> (x <= y)%Qc ->
  Forall2 Qcle (qinsert x s) (qinsert y t).
Proof.
  induction s as [|a s IH]; intros t x y Hs Ht H Hxy; inversion H as [|a' b s' t' Hab Hst]; subst.
  - cbn. repeat constructor. exact Hxy.
  - assert (Hs' : qsorted s) by (apply StronglySorted_inv in Hs as [? _]; assumption).
    assert (Ht' : qsorted t') by (apply StronglySorted_inv in Ht as [? _]; assumption).
    cbn. destruct (qleb_spec x a) as [L1|L1], (qleb_spec y b) as [L2|L2].
    + repeat constructor; assumption.
    + constructor; [eapply Qcle_trans; eauto|]. rewrite <- (qinsert_le_hd a s Hs). apply IH; auto. qlra.
    + constructor; [qlra|]. rewrite <- (qinsert_le_hd b t' Ht). apply IH; auto. eapply Qcle_trans; eauto.
    + constructor; [assumption|]. apply IH; auto.
Qed.
Lemma Forall2_qsort l m : Forall2 Qcle l m -> Forall2 Qcle (qsort l) (qsort m).
Proof.
  induction 1 as [|x y l m H H' IH]; cbn; [constructor|].
  apply Forall2_qinsert; auto; apply sorted_qsort.
Qed.
Lemma Forall2_len {A B} (R : A -> B -> Prop) l m : Forall2 R l m -> length l = length m.
Proof. induction 1; cbn; congruence. Qed.
Lemma Forall2_qnth s t k : Forall2 Qcle s t -> 0 <= k < zlen s -> (qnth s k <= qnth t k)%Qc.
Proof.
  unfold qnth, zlen. intros H Hk. assert (K : (Z.to_nat k < length s)%nat) by lia. clear Hk.
  revert K. generalize (Z.to_nat k) as n. induction H as [|x y l m H H' IH]; intros n K; cbn in K; [lia|].
  destruct n as [|n]; cbn; [exact H|]. apply IH. lia.
Qed.
Lemma raised_finites a b : raised a b -> Forall2 Qcle (finites a) (finites b).
Proof.
  unfold raised. induction 1 as [|u v a b H H' IH]; cbn; [constructor|].
  destruct u, v; try contradiction; try exact IH. constructor; assumption.
Qed.
Lemma calc_quantile_raised a b q : (0 <= q <= 1)%Qc -> raised a b ->
  match calc_quantile a (Fin q), calc_quantile b (Fin q) with
  | Ok (Fin x), Ok (Fin y) => (x <= y)%Qc
  | Ok u, Ok v => u = MV /\ v = MV /\ finites a = [] /\ finites b = []
  | _, _ => False
  end.
Proof.
  intros Hq H. apply raised_finites in H. rewrite !calc_quantile_value by exact Hq.
  destruct (finites a) as [|x l] eqn:Ea, (finites b) as [|y m] eqn:Eb; inversion H; subst.
  - cbn. auto.
  - rewrite <- Ea, <- Eb in *.
    assert (HL : zlen (finites a) = zlen (finites b)) by (unfold zlen; rewrite (Forall2_len _ _ _ H); reflexivity).
    assert (0 < zlen (finites a)) as HN by (apply zlen_pos; congruence).
    rewrite <- HL. apply Forall2_qsort in H. set (pos := (q * qz (zlen (finites a) - 1))%Qc).
    assert (Hp : (0 <= pos <= qz (zlen (finites a) - 1))%Qc) by (apply quantile_pos_bounds; [exact Hq|lia]).
    destruct (lerp_bounds (qsort (finites a)) (sorted_qsort _) pos) as (A1 & A2 & A3 & A4 & A5 & A6 & A7); [rewrite zlen_qsort; exact Hp|].
    rewrite zlen_qsort in A3. pose proof (Forall2_qnth _ _ (Qfloor pos) H) as B1. rewrite zlen_qsort in B1. specialize (B1 ltac:(lia)).
    unfold lerp_at. destruct (Z.eq_dec (Qceiling pos) (Qfloor pos)) as [E|E].
    + rewrite E in A5. assert (pos = qz (Qfloor pos)) as Ep by (apply Qcle_antisym; destruct A5; assumption).
      assert (pos - qz (Qfloor pos) = 0)%Qc as -> by (rewrite Ep at 1; ring). qlra.
    + pose proof (Forall2_qnth _ _ (Qfloor pos + 1) H) as B2. rewrite zlen_qsort in B2. specialize (B2 ltac:(lia)).
      replace (Qceiling pos) with (Qfloor pos + 1) in A5 by lia. rewrite qz_add, qz_1 in A5. destruct A5.
      set (f := (pos - qz (Qfloor pos))%Qc). assert (0 <= f <= 1)%Qc as [F0 F1] by (unfold f; split; qlra).
      clearbody f. revert B1 B2. generalize (qnth (qsort (finites a)) (Qfloor pos)) (qnth (qsort (finites b)) (Qfloor pos))
        (qnth (qsort (finites a)) (Qfloor pos + 1)) (qnth (qsort (finites b)) (Qfloor pos + 1)).
      clear - F0 F1. intros s0 t0 s1 t1 B1 B2.
      assert (0 <= f * (t1 - s1))%Qc by qnra. assert (0 <= (1 - f) * (t0 - s0))%Qc by qnra. qlra.
Qed.
