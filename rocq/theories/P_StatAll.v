(** Collected lemmas for T_Stat. *)
From Verif Require Import Base ListLib M_Stat S_Stat P_Stat P_Quant P_Even.

Lemma c01_all :
  (forall E a b st, stat_listed st -> same_finites a b -> calc_statistic E a st = calc_statistic E b st) /\
  (forall a b, Permutation a b -> same_finites a b) /\
  (forall a b v, is_valid v = false -> same_finites (a ++ v :: b) (a ++ b)) /\
  (forall E a st, stat_listed st -> exists v, calc_statistic E a st = Ok v /\
     (finites a = [] -> v = if stat_eqb st Count then fz 0 else MV) /\ (finites a <> [] -> is_valid v = true)).
Proof.
  split; [intros; apply calc_statistic_perm; assumption|]. split; [exact Permutation_finites|]. split.
  - intros a b v H. unfold same_finites. rewrite !finites_app. destruct v; try discriminate; reflexivity.
  - exact calc_statistic_ok.
Qed.
Lemma c02_all E a : finites a <> [] ->
  let l := finites a in
  calc_statistic E a Sum = Ok (Fin (qsum l)) /\
  calc_statistic E a Count = Ok (Fin (qlen l)) /\
  calc_statistic E a Mean = Ok (Fin (qsum l / qlen l)%Qc) /\
  calc_statistic E a Variance = Ok (Fin (qsum (map (fun x => (x - qmean l) * (x - qmean l))%Qc l) / qlen l)%Qc) /\
  calc_statistic E a Std = Ok (Fin (ext_sqrt E (qvar l))) /\ (0 <= qvar l)%Qc.
Proof.
  intros H l. rewrite calc_sum, calc_count, calc_mean, !calc_var_std by auto. fold l.
  rewrite !match_ne by exact H. pose proof (qvar_nonneg l) as V.
  split; [reflexivity|]. split; [reflexivity|]. split; [reflexivity|]. split; [reflexivity|]. split; [|exact V].
  cbn. destruct (qltb_spec (qvar l) 0); [exfalso; qlra|reflexivity].
Qed.
Lemma c03_all E a : finites a <> [] ->
  (exists m, calc_statistic E a Min = Ok (Fin m) /\ In (Fin m) a /\ forall x, In (Fin x) a -> (m <= x)%Qc) /\
  (exists m, calc_statistic E a Max = Ok (Fin m) /\ In (Fin m) a /\ forall x, In (Fin x) a -> (x <= m)%Qc) /\
  (exists m, calc_statistic E a Median = Ok (Fin m) /\
    (forall lo hi, is_min (finites a) lo -> is_max (finites a) hi -> (lo <= m <= hi)%Qc) /\
    zlen (finites a) <= 2 * count_le (finites a) m /\ zlen (finites a) <= 2 * count_ge (finites a) m).
Proof.
  intros H. split; [|split; [|apply calc_median; exact H]].
  - destruct (calc_min E a H) as (m & R & M1 & M2). exists m. split; [exact R|]. split; [apply in_finites; exact M1|].
    intros x Hx. apply M2. apply in_finites; exact Hx.
  - destruct (calc_max E a H) as (m & R & M1 & M2). exists m. split; [exact R|]. split; [apply in_finites; exact M1|].
    intros x Hx. apply M2. apply in_finites; exact Hx.
Qed.
Lemma c04_all :
  (forall a q, (0 <= q <= 1)%Qc -> finites a <> [] ->
     exists r, calc_quantile a (Fin q) = Ok (Fin r) /\ is_quantile (finites a) q r) /\
  (forall a q, (0 <= q <= 1)%Qc -> finites a = [] -> calc_quantile a (Fin q) = Ok MV) /\
  (forall a q, (q < 0)%Qc \/ (1 < q)%Qc -> calc_quantile a (Fin q) = Throw InvalidArgument) /\
  (forall a, calc_quantile a NaN = Ok MV) /\
  (forall l r, l <> [] -> is_quantile l 0 r -> is_min l r) /\
  (forall l r, l <> [] -> is_quantile l 1 r -> is_max l r) /\
  (forall l q r lo hi, (0 <= q <= 1)%Qc -> is_quantile l q r -> is_min l lo -> is_max l hi -> (lo <= r <= hi)%Qc) /\
  (forall l q q' r r', (0 <= q)%Qc -> (q <= q')%Qc -> (q' <= 1)%Qc -> l <> [] ->
     is_quantile l q r -> is_quantile l q' r' -> (r <= r')%Qc) /\
  (forall l q r r', is_quantile l q r -> is_quantile l q r' -> r = r') /\
  (forall a b q, same_finites a b -> calc_quantile a q = calc_quantile b q).
Proof.
  split; [exact calc_quantile_is_quantile|].
  split; [intros a q Hq H; rewrite calc_quantile_value, H by exact Hq; reflexivity|].
  split.
  { intros a q H. unfold calc_quantile, vltb, fz. rewrite qz_0, qz_1.
    destruct H as [H|H]; [destruct (qltb_spec q 0)|destruct (qltb_spec 1 q)]; try contradiction; [reflexivity|].
    rewrite orb_true_r. reflexivity. }
  split; [reflexivity|]. split; [exact is_quantile_0|]. split; [exact is_quantile_1|].
  split; [exact is_quantile_between|]. split; [exact is_quantile_mono|]. split; [exact is_quantile_unique|].
  exact calc_quantile_perm.
Qed.
Lemma c06_all l num : l <> [] -> 1 <= num ->
  exists out, calc_even_quantiles (map Fin l) num = Ok (map Fin out) /\
    out <> [] /\ zlen out <= num /\ incl out l /\ qsorted out /\
    is_min l (qnth out 0) /\ (2 <= num -> is_max l (qnth out (zlen out - 1))).
Proof.
  intros H1 H2. destruct (calc_even_quantiles_ok l num H1 H2) as (out & E & A1 & A2 & A3 & A4 & A5 & A6 & _).
  exists out. auto 10.
Qed.
Lemma c07_refuted : exists l num out, 1 <= num /\ calc_even_quantiles (map Fin l) num = Ok (map Fin out) /\ ~ NoDup out.
Proof.
  exists [qz 1; qz 1; qz 1; qz 1; qz 2; qz 3], 4, [qz 1; qz 2; qz 3; qz 3]. split; [lia|]. split; [vcalc|].
  intros H. inversion H as [|? ? _ H1]; subst. inversion H1 as [|? ? _ H2]; subst. inversion H2 as [|? ? H3 _]; subst.
  apply H3. left. reflexivity.
Qed.
Lemma c07_partial l num : l <> [] -> 1 <= num -> num <= distinct l ->
  exists out, calc_even_quantiles (map Fin l) num = Ok (map Fin out) /\ zlen out = num /\ NoDup out.
Proof.
  intros H1 H2 H3. destruct (calc_even_quantiles_ok l num H1 H2) as (out & E & _ & _ & _ & _ & _ & _ & D).
  exists out. destruct (D H3). auto.
Qed.
