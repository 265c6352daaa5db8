(** Proofs about calc_statistic and calc_quantile. *)
From Verif Require Import Base ListLib M_Stat S_Stat.
From Coq Require Import Qround Lqa.

Lemma fold_skip {S} (step : S -> val -> S) a : forall s,
  (forall s v, is_valid v = false -> step s v = s) ->
  fold_left step a s = fold_left step (map Fin (finites a)) s.
Proof.
  induction a as [|v a IH]; intros s H; [reflexivity|].
  destruct v; cbn [fold_left finites map]; try (rewrite H by reflexivity; apply IH; exact H).
  apply IH; exact H.
Qed.
Lemma finites_map_Fin l : finites (map Fin l) = l.
Proof. induction l; cbn; congruence. Qed.
Lemma filter_valid a : filter is_valid a = map Fin (finites a).
Proof. induction a as [|v a IH]; [reflexivity|]. destruct v; cbn; congruence. Qed.
Lemma finites_app a b : finites (a ++ b) = finites a ++ finites b.
Proof. induction a as [|v a IH]; [reflexivity|]. destruct v; cbn; congruence. Qed.
Lemma in_finites a x : In x (finites a) <-> In (Fin x) a.
Proof.
  induction a as [|v a IH]; [reflexivity|]. destruct v; cbn; rewrite ?IH; split;
    intros [H|H] || intros H; auto; try discriminate.
  - left; congruence.
  - left; congruence.
Qed.
Lemma Permutation_finites a b : Permutation a b -> Permutation (finites a) (finites b).
Proof.
  induction 1 as [|v a b H IH|v w a|a b c H1 IH1 H2 IH2]; cbn; auto.
  - destruct v; auto.
  - destruct v, w; auto. constructor.
  - etransitivity; eauto.
Qed.

(** sums *)
Lemma qsum_app l m : qsum (l ++ m) = (qsum l + qsum m)%Qc.
Proof. induction l as [|x l IH]; cbn; [ring|]. rewrite IH. ring. Qed.
Lemma qsum_perm l m : Permutation l m -> qsum l = qsum m.
Proof. induction 1; cbn; try congruence. ring. Qed.
Lemma zlen_perm {A} (l m : list A) : Permutation l m -> zlen l = zlen m.
Proof. intros H. unfold zlen. rewrite (Permutation_length H). reflexivity. Qed.
Lemma qmean_perm l m : Permutation l m -> qmean l = qmean m.
Proof. intros H. unfold qmean, qlen. rewrite (qsum_perm _ _ H), (zlen_perm _ _ H). reflexivity. Qed.
Lemma qvar_perm l m : Permutation l m -> qvar l = qvar m.
Proof.
  intros H. unfold qvar, qlen. rewrite (qmean_perm _ _ H), (zlen_perm _ _ H). f_equal.
  apply qsum_perm. apply Permutation_map. exact H.
Qed.
Lemma qlen_pos {A} (l : list A) : l <> [] -> (0 < qlen l)%Qc.
Proof.
  intros H. unfold qlen. change 0%Qc with (qz 0). apply qz_lt. destruct l; [congruence|].
  rewrite zlen_cons. pose proof (zlen_nonneg l). lia.
Qed.
Lemma qlen_neq0 {A} (l : list A) : l <> [] -> qlen l <> 0%Qc.
Proof. intros H E. pose proof (qlen_pos l H) as P. rewrite E in P. revert P. apply Qclt_not_eq || idtac. intros P. qlra. Qed.
Lemma qlen_nonneg {A} (l : list A) : (0 <= qlen l)%Qc.
Proof. unfold qlen. change 0%Qc with (qz 0). apply qz_le. apply zlen_nonneg. Qed.

Lemma sum_fold l : forall t c,
  fold_left sum_step (map Fin l) (Fin t, c) = (Fin (t + qsum l)%Qc, c + zlen l).
Proof.
  induction l as [|x l IH]; intros t c; cbn [map fold_left qsum].
  - f_equal; [f_equal; ring|rewrite zlen_nil; lia].
  - unfold sum_step at 2. cbn. rewrite IH. rewrite zlen_cons. f_equal; [f_equal; ring|lia].
Qed.
Lemma var_fold l K : forall t t2 c,
  fold_left var_step (map Fin l) (Fin t, Fin t2, Fin K, c)
  = (Fin (t + qsum (map (fun x => x - K) l))%Qc,
     Fin (t2 + qsum (map (fun x => (x - K) * (x - K)) l))%Qc, Fin K, c + zlen l).
Proof.
  induction l as [|x l IH]; intros t t2 c; cbn [map fold_left qsum].
  - change (zlen (@nil Qc)) with 0. rewrite Z.add_0_r, !Qcplus_0_r. reflexivity.
  - unfold var_step at 2. cbn. rewrite IH. rewrite zlen_cons.
    match goal with |- (Fin ?a, Fin ?b, Fin K, ?c) = (Fin ?a', Fin ?b', Fin K, ?c') =>
      replace a' with a by (unfold Qcminus; ring); replace b' with b by (unfold Qcminus; ring); replace c' with c by lia end.
    reflexivity.
Qed.
Lemma sum_skip s v : is_valid v = false -> sum_step s v = s.
Proof. intros H. unfold sum_step. rewrite H. reflexivity. Qed.
Lemma var_skip s v : is_valid v = false -> var_step s v = s.
Proof. intros H. destruct s as [[[a b] c] d]. cbn. rewrite H. reflexivity. Qed.
Lemma qsum_shift l K : qsum (map (fun x => x - K)%Qc l) = (qsum l - qlen l * K)%Qc.
Proof.
  unfold qlen. induction l as [|x l IH]; cbn [map qsum].
  - change (qz (zlen (@nil Qc))) with 0%Qc. ring.
  - rewrite IH, zlen_cons, qz_add, qz_1. ring.
Qed.
Lemma qsum_shift2 l K : qsum (map (fun x => (x - K) * (x - K))%Qc l)
  = (qsum (map (fun x => x * x) l) - (1 + 1) * K * qsum l + qlen l * K * K)%Qc.
Proof.
  unfold qlen. induction l as [|x l IH]; cbn [map qsum].
  - change (qz (zlen (@nil Qc))) with 0%Qc. ring.
  - rewrite IH, zlen_cons, qz_add, qz_1. ring.
Qed.
(** shift invariance: E[(x-K)^2] - E[x-K]^2 is the variance, whatever K *)
Lemma var_shift l K : l <> [] ->
  (qsum (map (fun x => (x - K) * (x - K)) l) / qlen l
   - (qsum (map (fun x => x - K) l) / qlen l) * (qsum (map (fun x => x - K) l) / qlen l) = qvar l)%Qc.
Proof.
  intros H. unfold qvar, qmean. rewrite !qsum_shift2, qsum_shift. field. apply qlen_neq0; exact H.
Qed.
Lemma qsum_nonneg l : (forall x, In x l -> 0 <= x)%Qc -> (0 <= qsum l)%Qc.
Proof.
  induction l as [|x l IH]; intros H; cbn.
  - apply Qcle_refl.
  - assert (0 <= x)%Qc by (apply H; left; reflexivity).
    assert (0 <= qsum l)%Qc by (apply IH; intros; apply H; right; assumption). qlra.
Qed.
Lemma qdiv_nonneg a b : (0 <= a -> 0 < b -> 0 <= a / b)%Qc.
Proof.
  intros H1 H2. unfold Qcle. rewrite this_div. unfold Qcle, Qclt in *. apply Qle_shift_div_l; [exact H2|].
  rewrite Qmult_0_l. exact H1.
Qed.
Lemma qle_div_iff a b c : (0 < c -> (a <= b / c <-> a * c <= b))%Qc.
Proof.
  intros H. split; intros G.
  - assert (E : b = (b / c * c)%Qc) by (field; intros Z; subst; qlra). rewrite E. apply Qcmult_le_compat_r; [exact G|qlra].
  - assert (E : (a = a * c / c)%Qc) by (field; intros Z; subst; qlra). rewrite E.
    unfold Qcdiv. apply Qcmult_le_compat_r; [exact G|].
    change (0 <= /c)%Qc. replace (/ c)%Qc with (1 / c)%Qc by (field; intros Z; subst; qlra). apply qdiv_nonneg; qlra.
Qed.
Lemma qdiv_le_iff a b c : (0 < c -> (b / c <= a <-> b <= a * c))%Qc.
Proof.
  intros H. split; intros G.
  - assert (E : b = (b / c * c)%Qc) by (field; intros Z; subst; qlra). rewrite E. apply Qcmult_le_compat_r; [exact G|qlra].
  - assert (E : (a = a * c / c)%Qc) by (field; intros Z; subst; qlra). rewrite E.
    unfold Qcdiv. apply Qcmult_le_compat_r; [exact G|].
    change (0 <= /c)%Qc. replace (/ c)%Qc with (1 / c)%Qc by (field; intros Z; subst; qlra). apply qdiv_nonneg; qlra.
Qed.
Lemma qsq_nonneg x : (0 <= x * x)%Qc.
Proof. qnra. Qed.
Lemma qvar_nonneg l : (0 <= qvar l)%Qc.
Proof.
  destruct l as [|y l]; [vm_compute; discriminate|].
  apply qdiv_nonneg; [|apply qlen_pos; discriminate].
  apply qsum_nonneg. intros x Hx. apply in_map_iff in Hx as (z & <- & _). apply qsq_nonneg.
Qed.

Lemma vdiv_Fin x y : y <> 0%Qc -> vdiv (Fin x) (Fin y) = Fin (x / y)%Qc.
Proof. intros H. cbn. destruct (qeqb_spec y 0); [congruence|reflexivity]. Qed.

Lemma calc_sum E a : calc_statistic E a Sum =
  Ok (if finites a then MV else Fin (qsum (finites a))).
Proof.
  unfold calc_statistic. rewrite fold_skip by apply sum_skip. unfold fz at 1. rewrite sum_fold. cbn [stat_eqb].
  destruct (finites a) as [|x l]; [reflexivity|]. rewrite zlen_cons. pose proof (zlen_nonneg l).
  replace (0 <? 0 + (zlen l + 1)) with true by lia. do 2 f_equal. rewrite qz_0. ring.
Qed.
Lemma calc_count E a : calc_statistic E a Count = Ok (Fin (qlen (finites a))).
Proof.
  unfold calc_statistic. rewrite fold_skip by apply sum_skip. unfold fz at 1. rewrite sum_fold. cbn [stat_eqb].
  reflexivity.
Qed.
Lemma calc_mean E a : calc_statistic E a Mean =
  Ok (if finites a then MV else Fin (qmean (finites a))).
Proof.
  unfold calc_statistic. rewrite fold_skip by apply sum_skip. unfold fz at 1. rewrite sum_fold. cbn [stat_eqb].
  destruct (finites a) as [|x l] eqn:E0; [reflexivity|]. rewrite <- E0.
  assert (Hne : finites a <> []) by congruence.
  replace (0 <? 0 + zlen (finites a)) with true by (rewrite E0, zlen_cons; pose proof (zlen_nonneg l); lia).
  change (fz (0 + zlen (finites a))) with (Fin (qlen (finites a))).
  rewrite vdiv_Fin by (apply qlen_neq0; exact Hne). do 2 f_equal. unfold qmean. rewrite qz_0. f_equal. ring.
Qed.
Lemma calc_var_std E a st : st = Variance \/ st = Std -> calc_statistic E a st =
  Ok (if finites a then MV else if stat_eqb st Std then vsqrt E (Fin (qvar (finites a))) else Fin (qvar (finites a))).
Proof.
  intros Hst.
  assert (calc_statistic E a st =
    let '(total, total2, _, count) := fold_left var_step a (fz 0, fz 0, MV, 0) in
    if 0 <? count then
      let mean := vdiv total (fz count) in
      let mean2 := vdiv total2 (fz count) in
      let var := vsub mean2 (vmul mean mean) in
      let var := if vltb var (fz 0) then fz 0 else var in
      Ok (if stat_eqb st Std then vsqrt E var else var)
    else Ok MV) as -> by (destruct Hst as [-> | ->]; reflexivity).
  rewrite fold_skip by apply var_skip.
  destruct (finites a) as [|x l] eqn:E0; [reflexivity|]. rewrite <- E0.
  assert (Hne : finites a <> []) by congruence.
  assert (F : fold_left var_step (map Fin (finites a)) (fz 0, fz 0, MV, 0)
    = (Fin (qsum (map (fun z => z - x)%Qc (finites a))), Fin (qsum (map (fun z => (z - x) * (z - x))%Qc (finites a))),
       Fin x, zlen (finites a))).
  { rewrite E0. cbn [map fold_left]. unfold var_step at 2. cbn. rewrite var_fold. rewrite zlen_cons.
    match goal with |- (Fin ?a, Fin ?b, Fin x, ?c) = (Fin ?a', Fin ?b', Fin x, ?c') =>
      replace a' with a by (unfold Qcminus; rewrite ?qz_0; ring); replace b' with b by (unfold Qcminus; rewrite ?qz_0; ring);
      replace c' with c by lia end.
    reflexivity. }
  rewrite F. replace (0 <? zlen (finites a)) with true by (rewrite E0, zlen_cons; pose proof (zlen_nonneg l); lia).
  change (fz (zlen (finites a))) with (Fin (qlen (finites a))).
  cbv zeta. rewrite !vdiv_Fin by (apply qlen_neq0; exact Hne).
  assert (V : vsub (Fin (qsum (map (fun z => (z - x) * (z - x))%Qc (finites a)) / qlen (finites a))%Qc)
    (vmul (Fin (qsum (map (fun z => z - x)%Qc (finites a)) / qlen (finites a))%Qc)
          (Fin (qsum (map (fun z => z - x)%Qc (finites a)) / qlen (finites a))%Qc)) = Fin (qvar (finites a))).
  { rewrite <- (var_shift (finites a) x Hne). cbn. f_equal. }
  rewrite V. cbn. destruct (qltb_spec (qvar (finites a)) (qz 0)) as [H|H]; [|reflexivity].
  exfalso. pose proof (qvar_nonneg (finites a)). rewrite qz_0 in H. qlra.
Qed.

(** insertion sort *)
Fixpoint qinsert (x : Qc) (l : list Qc) : list Qc :=
  match l with [] => [x] | y :: t => if qleb x y then x :: l else y :: qinsert x t end.
Definition qsort (l : list Qc) : list Qc := fold_right qinsert [] l.
Lemma vleb_Fin x y : vleb (Fin x) (Fin y) = qleb x y.
Proof.
  unfold vleb. cbn. destruct (qltb_spec x y), (qeqb_spec x y), (qleb_spec x y); cbn; try reflexivity; exfalso.
  - qlra. 
  - qlra.
  - subst. qlra.
  - apply n0. apply Qcle_antisym; qlra.
Qed.
Lemma vinsert_map x l : vinsert (Fin x) (map Fin l) = map Fin (qinsert x l).
Proof.
  induction l as [|y l IH]; [reflexivity|]. cbn [map vinsert qinsert]. rewrite vleb_Fin.
  destruct (qleb x y); [reflexivity|]. cbn [map]. congruence.
Qed.
Lemma visort_map l : visort (map Fin l) = map Fin (qsort l).
Proof.
  unfold visort, qsort. induction l as [|x l IH]; [reflexivity|]. cbn. rewrite IH. apply vinsert_map.
Qed.
Lemma no_nan_map l : existsb is_nan (map Fin l) = false.
Proof. induction l; cbn; auto. Qed.
Lemma std_sort_map l : std_sort (map Fin l) = Ok (map Fin (qsort l)).
Proof. unfold std_sort. rewrite no_nan_map, andb_false_r, visort_map. reflexivity. Qed.
Lemma perm_qinsert x l : Permutation (qinsert x l) (x :: l).
Proof.
  induction l as [|y l IH]; cbn; [reflexivity|]. destruct (qleb x y); [reflexivity|].
  rewrite IH. apply perm_swap.
Qed.
Lemma perm_qsort l : Permutation (qsort l) l.
Proof. induction l as [|x l IH]; cbn; [reflexivity|]. rewrite perm_qinsert. constructor. exact IH. Qed.
Lemma sorted_qinsert x l : qsorted l -> qsorted (qinsert x l).
Proof.
  unfold qsorted. induction l as [|y l IH]; intros H; cbn.
  - repeat constructor.
  - apply StronglySorted_inv in H as [H1 H2]. destruct (qleb_spec x y) as [L|L].
    + constructor; [constructor; assumption|]. constructor; [exact L|].
      eapply Forall_impl; [|exact H2]. intros z Hz. cbn in Hz. eapply Qcle_trans; eauto.
    + constructor; [apply IH; exact H1|].
      apply Forall_forall. intros z Hz. apply (Permutation_in _ (perm_qinsert x l)) in Hz. destruct Hz as [<-|Hz].
      * qlra.
      * rewrite Forall_forall in H2. apply H2; exact Hz.
Qed.
Lemma sorted_qsort l : qsorted (qsort l).
Proof. induction l as [|x l IH]; cbn; [constructor|]. apply sorted_qinsert; exact IH. Qed.
Lemma sorted_unique s t : Permutation s t -> qsorted s -> qsorted t -> s = t.
Proof.
  unfold qsorted. revert t. induction s as [|x s IH]; intros t HP Hs Ht.
  - apply Permutation_nil in HP. congruence.
  - destruct t as [|y t]; [apply Permutation_sym, Permutation_nil in HP; discriminate|].
    apply StronglySorted_inv in Hs as [Hs1 Hs2]. apply StronglySorted_inv in Ht as [Ht1 Ht2].
    rewrite Forall_forall in Hs2, Ht2.
    assert (x = y).
    { assert (In x (y :: t)) as Hx by (eapply Permutation_in; [exact HP|left; reflexivity]).
      assert (In y (x :: s)) as Hy by (eapply Permutation_in; [symmetry; exact HP|left; reflexivity]).
      destruct Hx as [->|Hx]; [reflexivity|]. destruct Hy as [->|Hy]; [reflexivity|].
      apply Qcle_antisym; auto. }
    subst. f_equal. apply IH; auto. eapply Permutation_cons_inv; exact HP.
Qed.
Lemma qsort_perm_eq l m : Permutation l m -> qsort l = qsort m.
Proof.
  intros H. apply sorted_unique; try apply sorted_qsort.
  rewrite !perm_qsort. exact H.
Qed.
Lemma zlen_qsort l : zlen (qsort l) = zlen l.
Proof. apply zlen_perm, perm_qsort. Qed.

Lemma qnth_znth s k : 0 <= k < zlen s -> znth s k = Ok (qnth s k).
Proof.
  intros H. apply znth_Ok. split; [lia|]. unfold qnth. apply nth_error_nth'. unfold zlen in H. lia.
Qed.
Lemma qnth_In s k : 0 <= k < zlen s -> In (qnth s k) s.
Proof. intros H. unfold qnth. apply nth_In. unfold zlen in H. lia. Qed.
Lemma qnth_mono s i j : qsorted s -> 0 <= i <= j -> j < zlen s -> (qnth s i <= qnth s j)%Qc.
Proof.
  unfold qsorted, qnth. intros Hs Hij Hj.
  assert (H : forall (m n : nat) l, StronglySorted Qcle l -> (m <= n < length l)%nat -> (nth m l 0 <= nth n l 0)%Qc).
  { clear. induction m as [|m IH]; intros n l Hs Hn.
    - destruct l as [|x l]; [cbn in Hn; lia|]. destruct n as [|n]; [apply Qcle_refl|].
      apply StronglySorted_inv in Hs as [_ Hs]. rewrite Forall_forall in Hs. cbn. apply Hs. apply nth_In. cbn in Hn. lia.
    - destruct l as [|x l]; [cbn in Hn; lia|]. destruct n as [|n]; [lia|].
      apply StronglySorted_inv in Hs as [Hs _]. cbn. apply IH; [exact Hs|cbn in Hn; lia]. }
  apply H; [exact Hs|unfold zlen in Hj; lia].
Qed.

(** floor and ceiling *)
Lemma qfloor_le (x : Qc) : (qz (Qfloor x) <= x)%Qc.
Proof. unfold Qcle. rewrite this_qz. apply Qfloor_le. Qed.
Lemma qlt_floor (x : Qc) : (x < qz (Qfloor x) + 1)%Qc.
Proof.
  unfold Qclt. rewrite this_add, this_qz. pose proof (Qlt_floor x) as H.
  rewrite inject_Z_plus in H. exact H.
Qed.
Lemma qfloor_unique (x : Qc) k : (qz k <= x < qz k + 1)%Qc -> Qfloor x = k.
Proof.
  intros [H1 H2]. pose proof (qfloor_le x). pose proof (qlt_floor x).
  assert (qz k < qz (Qfloor x + 1))%Qc as A. { rewrite qz_add, qz_1. qlra. }
  assert (qz (Qfloor x) < qz (k + 1))%Qc as B. { rewrite qz_add, qz_1. qlra. }
  apply (proj1 (qz_lt _ _)) in A. apply (proj1 (qz_lt _ _)) in B. lia.
Qed.
Lemma qfloor_mono (x y : Qc) : (x <= y)%Qc -> Qfloor x <= Qfloor y.
Proof. intros H. apply Qfloor_resp_le. exact H. Qed.
Lemma qfloor_qz k : Qfloor (qz k) = k.
Proof. apply qfloor_unique. split; qlra. Qed.
Lemma qceil_spec (x : Qc) : Qceiling x = if qeqb x (qz (Qfloor x)) then Qfloor x else Qfloor x + 1.
Proof.
  assert (H1 : (x <= qz (Qceiling x))%Qc). { unfold Qcle. rewrite this_qz. apply Qle_ceiling. }
  assert (H2 : (qz (Qceiling x) - 1 < x)%Qc).
  { unfold Qclt. rewrite this_sub, this_qz. pose proof (Qceiling_lt x) as H.
    unfold Z.sub in H. rewrite inject_Z_plus in H. exact H. }
  pose proof (qfloor_le x) as H3. pose proof (qlt_floor x) as H4.
  destruct (qeqb_spec x (qz (Qfloor x))) as [E|E].
  - assert (qz (Qfloor x) <= qz (Qceiling x))%Qc as A by qlra.
    assert (qz (Qceiling x) < qz (Qfloor x + 1))%Qc as B. { rewrite qz_add, qz_1. qlra. }
    apply (proj1 (qz_le _ _)) in A. apply (proj1 (qz_lt _ _)) in B. lia.
  - assert (qz (Qfloor x) < qz (Qceiling x))%Qc as A.
    { destruct (Qclt_le_dec (qz (Qfloor x)) (qz (Qceiling x))) as [L|L]; [exact L|].
      exfalso. apply E. apply Qcle_antisym; qlra. }
    assert (qz (Qceiling x) < qz (Qfloor x + 2))%Qc as B. { rewrite qz_add. change (qz 2) with (1 + 1)%Qc. qlra. }
    apply (proj1 (qz_lt _ _)) in A. apply (proj1 (qz_lt _ _)) in B. lia.
Qed.

(** min / max loops *)
Lemma min_skip s v : is_valid v = false -> min_step s v = s.
Proof. intros H. unfold min_step. rewrite H. reflexivity. Qed.
Lemma max_skip s v : is_valid v = false -> max_step s v = s.
Proof. intros H. unfold max_step. rewrite H. reflexivity. Qed.
Lemma min_fold l : forall m, exists r, fold_left min_step (map Fin l) (Fin m) = Fin r /\ is_min (m :: l) r.
Proof.
  induction l as [|x l IH]; intros m; cbn [map fold_left].
  - exists m. split; [reflexivity|]. split; [left; reflexivity|]. intros y [<-|[]]. apply Qcle_refl.
  - unfold min_step at 2. cbn. destruct (qltb_spec x m) as [H|H].
    + destruct (IH x) as (r & Hr & [H1 H2]). exists r. split; [exact Hr|]. split; [destruct H1; subst; cbn; auto|].
      intros y [<-|[<-|Hy]]; [|apply H2; left; reflexivity|apply H2; right; exact Hy].
      assert (r <= x)%Qc by (apply H2; left; reflexivity). qlra.
    + destruct (IH m) as (r & Hr & [H1 H2]). exists r. split; [exact Hr|]. split; [destruct H1; subst; cbn; auto|].
      intros y [<-|[<-|Hy]]; [apply H2; left; reflexivity| |apply H2; right; exact Hy].
      assert (r <= m)%Qc by (apply H2; left; reflexivity). qlra.
Qed.
Lemma max_fold l : forall m, exists r, fold_left max_step (map Fin l) (Fin m) = Fin r /\ is_max (m :: l) r.
Proof.
  induction l as [|x l IH]; intros m; cbn [map fold_left].
  - exists m. split; [reflexivity|]. split; [left; reflexivity|]. intros y [<-|[]]. apply Qcle_refl.
  - unfold max_step at 2. cbn. destruct (qltb_spec m x) as [H|H].
    + destruct (IH x) as (r & Hr & [H1 H2]). exists r. split; [exact Hr|]. split; [destruct H1; subst; cbn; auto|].
      intros y [<-|[<-|Hy]]; [|apply H2; left; reflexivity|apply H2; right; exact Hy].
      assert (x <= r)%Qc by (apply H2; left; reflexivity). qlra.
    + destruct (IH m) as (r & Hr & [H1 H2]). exists r. split; [exact Hr|]. split; [destruct H1; subst; cbn; auto|].
      intros y [<-|[<-|Hy]]; [apply H2; left; reflexivity| |apply H2; right; exact Hy].
      assert (m <= r)%Qc by (apply H2; left; reflexivity). qlra.
Qed.
Lemma is_min_unique l a b : is_min l a -> is_min l b -> a = b.
Proof. intros [A1 A2] [B1 B2]. apply Qcle_antisym; auto. Qed.
Lemma is_max_unique l a b : is_max l a -> is_max l b -> a = b.
Proof. intros [A1 A2] [B1 B2]. apply Qcle_antisym; auto. Qed.
Lemma is_min_perm l m r : Permutation l m -> is_min l r -> is_min m r.
Proof.
  intros H [A B]. split; [eapply Permutation_in; eauto|]. intros x Hx. apply B.
  eapply Permutation_in; [symmetry; exact H|exact Hx].
Qed.
Lemma is_max_perm l m r : Permutation l m -> is_max l r -> is_max m r.
Proof.
  intros H [A B]. split; [eapply Permutation_in; eauto|]. intros x Hx. apply B.
  eapply Permutation_in; [symmetry; exact H|exact Hx].
Qed.
Lemma sorted_min s : qsorted s -> s <> [] -> is_min s (qnth s 0).
Proof.
  intros Hs Hne. assert (0 < zlen s). { destruct s; [congruence|]. rewrite zlen_cons. pose proof (zlen_nonneg s). lia. }
  split; [apply qnth_In; lia|]. intros x Hx. apply In_znth in Hx as [i Hi]. pose proof (znth_range _ _ _ Hi) as Hr.
  rewrite qnth_znth in Hi by lia. injection Hi as <-. apply qnth_mono; auto; lia.
Qed.
Lemma sorted_max s : qsorted s -> s <> [] -> is_max s (qnth s (zlen s - 1)).
Proof.
  intros Hs Hne. assert (0 < zlen s). { destruct s; [congruence|]. rewrite zlen_cons. pose proof (zlen_nonneg s). lia. }
  split; [apply qnth_In; lia|]. intros x Hx. apply In_znth in Hx as [i Hi]. pose proof (znth_range _ _ _ Hi) as Hr.
  rewrite qnth_znth in Hi by lia. injection Hi as <-. apply qnth_mono; auto; lia.
Qed.

Lemma lerp_at_qz s k : lerp_at s (qz k) = qnth s k.
Proof. unfold lerp_at. rewrite qfloor_qz. ring. Qed.

(** the value calc_quantile computes, on the sorted list *)
Lemma calc_quantile_value a q : (0 <= q <= 1)%Qc ->
  calc_quantile a (Fin q) =
  Ok (if finites a then MV else Fin (lerp_at (qsort (finites a)) (q * qz (zlen (finites a) - 1))%Qc)).
Proof.
  intros [Hq0 Hq1]. unfold calc_quantile.
  assert (vltb (Fin q) (fz 0) = false) as ->. { cbn. destruct (qltb_spec q (qz 0)); [exfalso; rewrite qz_0 in *; qlra|reflexivity]. }
  assert (vltb (fz 1) (Fin q) = false) as ->. { cbn. destruct (qltb_spec (qz 1) q); [exfalso; rewrite qz_1 in *; qlra|reflexivity]. }
  cbn [orb]. destruct a as [|v a']; [reflexivity|]. set (a := v :: a').
  replace (zlen a =? 0) with false by (unfold a; rewrite zlen_cons; pose proof (zlen_nonneg a'); lia).
  destruct (qeqb_spec q 0) as [->|N0].
  { rewrite fold_skip by apply min_skip. destruct (finites a) as [|x l] eqn:E; [reflexivity|].
    cbn [map fold_left]. change (min_step MV (Fin x)) with (Fin x).
    destruct (min_fold l x) as (r & -> & Hr). do 2 f_equal.
    assert (0 * qz (zlen (x :: l) - 1) = qz 0)%Qc as -> by (rewrite qz_0; ring).
    rewrite lerp_at_qz. eapply is_min_unique; [exact Hr|].
    eapply is_min_perm; [apply perm_qsort|]. apply sorted_min; [apply sorted_qsort|].
    intros Z. pose proof (perm_qsort (x :: l)) as P. rewrite Z in P. apply Permutation_nil in P. discriminate. }
  destruct (qeqb_spec q 1) as [->|N1].
  { rewrite fold_skip by apply max_skip. destruct (finites a) as [|x l] eqn:E; [reflexivity|].
    cbn [map fold_left]. change (max_step MV (Fin x)) with (Fin x).
    destruct (max_fold l x) as (r & -> & Hr). do 2 f_equal.
    assert (1 * qz (zlen (x :: l) - 1) = qz (zlen (x :: l) - 1))%Qc as -> by ring.
    rewrite lerp_at_qz. eapply is_max_unique; [exact Hr|].
    eapply is_max_perm; [apply perm_qsort|]. rewrite <- (zlen_qsort (x :: l)). apply sorted_max; [apply sorted_qsort|].
    intros Z. pose proof (perm_qsort (x :: l)) as P. rewrite Z in P. apply Permutation_nil in P. discriminate. }
  rewrite filter_valid, zlen_map. set (l := finites a).
  assert (Hl : match l with [] => True | _ => 0 < zlen l end).
  { destruct l as [|x l']; [exact I|]. rewrite zlen_cons. pose proof (zlen_nonneg l'). lia. }
  destruct l as [|x l'] eqn:E; [reflexivity|]. rewrite <- E in *. clear E. 
  replace (0 <? zlen l) with true by lia. rewrite std_sort_map. cbn [bind].
  set (N := zlen l) in *. set (s := qsort l). set (pos := (q * qz (N - 1))%Qc).
  assert (HN : (0 <= qz (N - 1))%Qc). { change 0%Qc with (qz 0). apply qz_le. lia. }
  assert (Hp : (0 <= pos <= qz (N - 1))%Qc). { unfold pos. split; qnra. }
  assert (Hf0 : 0 <= Qfloor pos). { rewrite <- (qfloor_qz 0). apply qfloor_mono. rewrite qz_0. apply Hp. }
  assert (Hf1 : Qfloor pos <= N - 1). { rewrite <- (qfloor_qz (N - 1)). apply qfloor_mono. apply Hp. }
  assert (Hls : zlen s = N) by apply zlen_qsort.
  rewrite znth_map, qnth_znth by lia. cbn [bind].
  rewrite qceil_spec. destruct (qeqb_spec pos (qz (Qfloor pos))) as [Ep|Ep].
  { rewrite znth_map, qnth_znth by lia. cbn [bind]. rewrite Z.eqb_refl. do 2 f_equal.
    rewrite Ep at 2. rewrite lerp_at_qz. reflexivity. }
  assert (Hf2 : Qfloor pos + 1 <= N - 1).
  { assert (qz (Qfloor pos) < qz (N - 1))%Qc as A.
    { pose proof (qfloor_le pos). destruct (Qclt_le_dec (qz (Qfloor pos)) (qz (N - 1))) as [L|L]; [exact L|].
      exfalso. apply Ep. apply Qcle_antisym; destruct Hp; qlra. }
    apply (proj1 (qz_lt _ _)) in A. lia. }
  rewrite znth_map, qnth_znth by lia. cbn [bind].
  replace (Qfloor pos =? Qfloor pos + 1) with false by lia.
  assert (HN1 : qz (N - 1) <> 0%Qc). { rewrite <- qz_0. intros H. apply qz_inj in H. lia. }
  unfold fz at 1 2 3 4 5 6. rewrite !vdiv_Fin by exact HN1. cbn [vsub vadd vneg vmul].
  rewrite qz_add, qz_1.
  assert (HD : ((qz (Qfloor pos) + 1) / qz (N - 1) + - (qz (Qfloor pos) / qz (N - 1)) <> 0)%Qc).
  { intros H. assert (1 / qz (N - 1) = 0)%Qc as A. { rewrite <- H. field. exact HN1. }
    assert (1 = 0 * qz (N - 1))%Qc as B. { rewrite <- A. field. exact HN1. } rewrite Qcmult_0_l in B. discriminate. }
  rewrite vdiv_Fin by exact HD. cbn [vmul vadd]. do 2 f_equal. unfold lerp_at. fold N s pos.
  f_equal. rewrite Qcmult_comm. unfold Qcminus at 2. f_equal.
  replace ((qz (Qfloor pos) + 1) / qz (N - 1) + - (qz (Qfloor pos) / qz (N - 1)))%Qc with (1 / qz (N - 1))%Qc by (field; exact HN1).
  unfold pos at 2. field. split; [exact HN1|]. discriminate.
Qed.
