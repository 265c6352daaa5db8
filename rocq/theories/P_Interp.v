From Verif Require Import Base ListLib M_Interp S_Stat S_Interp P_Stat P_Quant P_Even.
From Coq Require Import Lqa.

Lemma qnth_cons0 x s : qnth (x :: s) 0 = x. Proof. reflexivity. Qed.
Lemma qnth_consS x s j : 0 < j -> qnth (x :: s) j = qnth s (j - 1).
Proof. intros H. unfold qnth. replace (Z.to_nat j) with (S (Z.to_nat (j - 1))) by lia. reflexivity. Qed.

(** the lower loop on finite values: stops at the first value >= x.  Sortedness is not needed here. *)
Lemma lower_loop_spec x X : forall base idx, exists k, 0 <= k <= zlen X /\
  (forall j, 0 <= j < k -> (qnth X j < x)%Qc) /\ (k < zlen X -> (x <= qnth X k)%Qc) /\
  lower_loop (Fin x) base idx (map Fin X) =
    (if (k <? zlen X) && qeqb (qnth X k) x then Some (base + k) else if k =? 0 then idx else Some (base + k - 1)).
Proof.
  induction X as [|c X IH]; intros base idx.
  - exists 0. change (zlen (@nil Qc)) with 0. split; [lia|]. split; [lia|]. split; [lia|]. reflexivity.
  - cbn [map lower_loop is_valid]. change (vltb (Fin c) (Fin x)) with (qltb c x). change (vltb (Fin x) (Fin c)) with (qltb x c).
    rewrite veqb_Fin, zlen_cons. pose proof (zlen_nonneg X).
    destruct (qltb_spec c x) as [L|L].
    + destruct (IH (base + 1) (Some base)) as (k & Hk & H1 & H2 & E). exists (k + 1). rewrite E. split; [lia|].
      split. { intros j Hj. destruct (Z.eq_dec j 0) as [->|Hj0]; [exact L|]. rewrite qnth_consS by lia. apply H1. lia. }
      split. { intros Hl. rewrite qnth_consS by lia. replace (k + 1 - 1) with k by lia. apply H2. lia. }
      rewrite qnth_consS by lia. replace (k + 1 - 1) with k by lia.
      replace (k + 1 <? zlen X + 1) with (k <? zlen X) by lia. replace (k + 1 =? 0) with false by lia.
      destruct ((k <? zlen X) && qeqb (qnth X k) x); [f_equal; lia|].
      destruct (Z.eqb_spec k 0) as [->|]; f_equal; lia.
    + exists 0. split; [lia|]. split; [lia|]. split; [intros _; rewrite qnth_cons0; qlra|].
      rewrite qnth_cons0. replace (0 <? zlen X + 1) with true by lia. cbn [andb].
      destruct (qeqb_spec c x) as [E|E]; [f_equal; lia|].
      destruct (qltb_spec x c) as [G|G]; [reflexivity|]. exfalso. apply E. apply Qcle_antisym; qlra.
Qed.
Lemma upper_loop_spec x X : forall base idx, exists k, 0 <= k <= zlen X /\
  (forall j, 0 <= j < k -> (x < qnth X j)%Qc) /\ (k < zlen X -> (qnth X k <= x)%Qc) /\
  upper_loop (Fin x) base idx (map Fin X) =
    (if (k <? zlen X) && qeqb (qnth X k) x then Some (base - k) else if k =? 0 then idx else Some (base - k + 1)).
Proof.
  induction X as [|c X IH]; intros base idx.
  - exists 0. change (zlen (@nil Qc)) with 0. split; [lia|]. split; [lia|]. split; [lia|]. reflexivity.
  - cbn [map upper_loop is_valid]. change (vltb (Fin c) (Fin x)) with (qltb c x). change (vltb (Fin x) (Fin c)) with (qltb x c).
    rewrite veqb_Fin, zlen_cons. pose proof (zlen_nonneg X).
    destruct (qltb_spec x c) as [L|L].
    + destruct (IH (base - 1) (Some base)) as (k & Hk & H1 & H2 & E). exists (k + 1). rewrite E. split; [lia|].
      split. { intros j Hj. destruct (Z.eq_dec j 0) as [->|Hj0]; [exact L|]. rewrite qnth_consS by lia. apply H1. lia. }
      split. { intros Hl. rewrite qnth_consS by lia. replace (k + 1 - 1) with k by lia. apply H2. lia. }
      rewrite qnth_consS by lia. replace (k + 1 - 1) with k by lia.
      replace (k + 1 <? zlen X + 1) with (k <? zlen X) by lia. replace (k + 1 =? 0) with false by lia.
      destruct ((k <? zlen X) && qeqb (qnth X k) x); [f_equal; lia|].
      destruct (Z.eqb_spec k 0) as [->|]; f_equal; lia.
    + exists 0. split; [lia|]. split; [lia|]. split; [intros _; rewrite qnth_cons0; qlra|].
      rewrite qnth_cons0. replace (0 <? zlen X + 1) with true by lia. cbn [andb].
      destruct (qeqb_spec c x) as [E|E]; [f_equal; lia|].
      destruct (qltb_spec c x) as [G|G]; [reflexivity|]. exfalso. apply E. apply Qcle_antisym; qlra.
Qed.
Lemma zlen_rev {A} (l : list A) : zlen (rev l) = zlen l.
Proof. unfold zlen. rewrite rev_length. reflexivity. Qed.
Lemma qnth_rev X j : 0 <= j < zlen X -> qnth (rev X) j = qnth X (zlen X - 1 - j).
Proof.
  intros H. unfold qnth, zlen in *. rewrite rev_nth by lia. f_equal. lia.
Qed.

(** both indices for a sorted list *)
Lemma indices_spec x X : qsorted X -> exists a b, bracket X x a b /\
  get_lower_index (Fin x) (map Fin X) = (if a <? b then Ok a else if a =? 0 then UB else Ok (a - 1)) /\
  get_upper_index (Fin x) (map Fin X) = (if a <? b then Ok (b - 1) else if b =? zlen X then UB else Ok b).
Proof.
  intros S. destruct (lower_loop_spec x X 0 None) as (a & Ha & A1 & A2 & EA).
  destruct (upper_loop_spec x (rev X) (zlen X - 1) None) as (m & Hm & B1 & B2 & EB). rewrite zlen_rev in *.
  set (b := zlen X - m). exists a, b.
  assert (B1' : forall j, b <= j < zlen X -> (x < qnth X j)%Qc).
  { intros j Hj. specialize (B1 (zlen X - 1 - j) ltac:(lia)). rewrite qnth_rev in B1 by lia.
    replace (zlen X - 1 - (zlen X - 1 - j)) with j in B1 by lia. exact B1. }
  assert (B2' : 0 < b -> (qnth X (b - 1) <= x)%Qc).
  { intros Hb. specialize (B2 ltac:(lia)). rewrite qnth_rev in B2 by lia.
    replace (zlen X - 1 - m) with (b - 1) in B2 by lia. exact B2. }
  assert (Hab : a <= b).
  { destruct (Z.le_gt_cases a b) as [G|G]; [exact G|]. exfalso. specialize (A1 b ltac:(lia)). specialize (B1' b ltac:(lia)). qlra. }
  assert (Mid : forall j, a <= j < b -> qnth X j = x).
  { intros j Hj. apply Qcle_antisym.
    - eapply Qcle_trans; [|apply B2'; lia]. apply qnth_mono; auto; lia.
    - eapply Qcle_trans; [apply A2; lia|]. apply qnth_mono; auto; lia. }
  split. { split; [lia|]. split; [lia|]. intros j Hj. split; [intros; apply A1; lia|]. split; [apply Mid|]. intros; apply B1'; lia. }
  split.
  - unfold get_lower_index. rewrite EA. destruct (Z.ltb_spec a b) as [G|G].
    + replace (a <? zlen X) with true by lia. rewrite (Mid a) by lia. destruct (qeqb_spec x x); [cbn; f_equal; lia|congruence].
    + assert (((a <? zlen X) && qeqb (qnth X a) x)%bool = false) as ->.
      { destruct (Z.ltb_spec a (zlen X)); [|reflexivity]. cbn. destruct (qeqb_spec (qnth X a) x) as [E|]; [|reflexivity].
        exfalso. specialize (B1' a ltac:(lia)). rewrite E in B1'. qlra. }
      destruct (a =? 0); cbn; [reflexivity|f_equal; lia].
  - unfold get_upper_index. rewrite zlen_map, <- map_rev, EB. destruct (Z.ltb_spec a b) as [G|G].
    + replace (m <? zlen X) with true by lia. rewrite qnth_rev by lia. replace (zlen X - 1 - m) with (b - 1) by lia.
      rewrite (Mid (b - 1)) by lia. destruct (qeqb_spec x x); [cbn; f_equal; lia|congruence].
    + assert (((m <? zlen X) && qeqb (qnth (rev X) m) x)%bool = false) as ->.
      { destruct (Z.ltb_spec m (zlen X)); [|reflexivity]. cbn. rewrite qnth_rev by lia.
        destruct (qeqb_spec (qnth X (zlen X - 1 - m)) x) as [E|]; [|reflexivity].
        exfalso. specialize (A1 (zlen X - 1 - m) ltac:(lia)). rewrite E in A1. qlra. }
      replace (m =? 0) with (b =? zlen X) by lia. destruct (b =? zlen X); cbn; [reflexivity|f_equal; lia].
Qed.
Lemma bracket_unique X x a b a' b' : bracket X x a b -> bracket X x a' b' -> a = a' /\ b = b'.
Proof.
  intros (A1 & A2 & A3) (B1 & B2 & B3).
  assert (G : forall a b a' b', 0 <= a <= b -> b <= zlen X -> 0 <= a' <= b' -> b' <= zlen X ->
    (forall j, 0 <= j < zlen X -> (j < a -> (qnth X j < x)%Qc) /\ (a <= j < b -> qnth X j = x) /\ (b <= j -> (x < qnth X j)%Qc)) ->
    (forall j, 0 <= j < zlen X -> (j < a' -> (qnth X j < x)%Qc) /\ (a' <= j < b' -> qnth X j = x) /\ (b' <= j -> (x < qnth X j)%Qc)) ->
    a <= a' /\ b <= b').
  { clear. intros a b a' b' H1 H2 H3 H4 F G. split.
    - destruct (Z.le_gt_cases a a') as [K|K]; [exact K|exfalso]. destruct (F a' ltac:(lia)) as (F1 & _ & _). specialize (F1 K).
      destruct (G a' ltac:(lia)) as (_ & G2 & G3). destruct (Z.lt_ge_cases a' b') as [L|L].
      + specialize (G2 ltac:(lia)). rewrite G2 in F1. qlra.
      + specialize (G3 ltac:(lia)). qlra.
    - destruct (Z.le_gt_cases b b') as [K|K]; [exact K|exfalso]. destruct (G b' ltac:(lia)) as (_ & _ & G3). specialize (G3 ltac:(lia)).
      destruct (F b' ltac:(lia)) as (F1 & F2 & _). destruct (Z.lt_ge_cases b' a) as [L|L].
      + specialize (F1 L). qlra.
      + specialize (F2 ltac:(lia)). rewrite F2 in G3. qlra. }
  pose proof (G a b a' b' A1 A2 B1 B2 A3 B3). pose proof (G a' b' a b B1 B2 A1 A2 B3 A3). lia.
Qed.

Lemma two_ne0 : qz 2 <> 0%Qc. Proof. rewrite <- qz_0. intros H. apply qz_inj in H. lia. Qed.
Lemma interpolate_spec x X Y : qsorted X -> X <> [] -> zlen X = zlen Y ->
  exists a b r, bracket X x a b /\ interpolate (Fin x) (map Fin X) (map Fin Y) = Ok (Fin r) /\ interp_rule X Y x a b r.
Proof.
  intros S Hne HL. destruct (indices_spec x X S) as (a & b & HB & EL & EU). exists a, b.
  pose proof (zlen_pos X Hne) as HN. destruct HB as (Hab & Hbn & HJ).
  unfold interpolate. cbn [is_valid negb]. rewrite !zlen_map. replace (zlen X =? zlen Y) with true by lia.
  replace (zlen X =? 0) with false by lia. cbn [negb].
  rewrite znth_map, qnth_znth by lia. cbn [bind]. change (vltb (Fin ?u) (Fin ?v)) with (qltb u v).
  destruct (qltb_spec (qnth X (zlen X - 1)) x) as [L1|L1].
  { assert (a = zlen X). { destruct (Z.eq_dec a (zlen X)) as [|G]; [assumption|exfalso].
      destruct (HJ (zlen X - 1) ltac:(lia)) as (_ & F2 & F3). destruct (Z.lt_ge_cases (zlen X - 1) b).
      - specialize (F2 ltac:(lia)). rewrite F2 in L1. qlra.
      - specialize (F3 ltac:(lia)). qlra. }
    exists (qnth Y (zlen X - 1)). split; [split; [lia|split; [lia|exact HJ]]|].
    rewrite znth_map, qnth_znth by lia. split; [reflexivity|]. unfold interp_rule. cbv zeta.
    repeat split; intros; try reflexivity; exfalso; lia. }
  rewrite znth_map, qnth_znth by lia. cbn [bind]. change (vltb (Fin ?u) (Fin ?v)) with (qltb u v).
  destruct (qltb_spec x (qnth X 0)) as [L2|L2].
  { assert (b = 0). { destruct (Z.eq_dec b 0) as [|G]; [assumption|exfalso].
      destruct (HJ 0 ltac:(lia)) as (F1 & F2 & _). destruct (Z.lt_ge_cases 0 a).
      - specialize (F1 ltac:(lia)). qlra.
      - specialize (F2 ltac:(lia)). rewrite F2 in L2. qlra. }
    exists (qnth Y 0). split; [split; [lia|split; [lia|exact HJ]]|].
    rewrite znth_map, qnth_znth by lia. split; [reflexivity|]. unfold interp_rule. cbv zeta.
    repeat split; intros; try reflexivity; exfalso; lia. }
  rewrite EL, EU. destruct (Z.ltb_spec a b) as [G|G].
  - cbn [bind]. rewrite !znth_map, !qnth_znth by lia. cbn [bind].
    destruct (HJ a ltac:(lia)) as (_ & F2 & _). destruct (HJ (b - 1) ltac:(lia)) as (_ & F2' & _).
    rewrite F2, F2' by lia. rewrite veqb_Fin. destruct (qeqb_spec x x) as [_|]; [|congruence].
    assert (HV : vdiv (vadd (Fin (qnth Y a)) (Fin (qnth Y (b - 1)))) (fz 2) = Fin ((qnth Y a + qnth Y (b - 1)) / (1 + 1))%Qc).
    { cbn [vadd]. unfold fz. rewrite vdiv_Fin by exact two_ne0. do 2 f_equal. }
    rewrite HV. replace (b - 1 =? zlen X - 1) with (b =? zlen X) by lia.
    destruct (Z.eqb_spec a 0) as [A0|A0], (Z.eqb_spec b (zlen X)) as [BN|BN]; cbn [andb];
      eexists; (split; [split; [lia|split; [lia|exact HJ]]|]); (split; [reflexivity|]);
      unfold interp_rule; cbv zeta; repeat split; intros; try reflexivity; exfalso; lia.
  - assert (a = b) as <- by lia.
    assert (a <> 0). { intros ->. destruct (HJ 0 ltac:(lia)) as (_ & _ & F3). specialize (F3 ltac:(lia)). contradiction. }
    assert (a <> zlen X). { intros E. destruct (HJ (zlen X - 1) ltac:(lia)) as (F1 & _ & _). specialize (F1 ltac:(lia)). contradiction. }
    replace (a =? 0) with false by lia. replace (a =? zlen X) with false by lia.
    cbn [bind]. rewrite !znth_map, !qnth_znth by lia. cbn [bind]. rewrite veqb_Fin.
    destruct (HJ (a - 1) ltac:(lia)) as (F1 & _ & _). specialize (F1 ltac:(lia)).
    destruct (HJ a ltac:(lia)) as (_ & _ & F3). specialize (F3 ltac:(lia)).
    destruct (qeqb_spec (qnth X (a - 1)) (qnth X a)) as [E|E]; [rewrite E in F1; exfalso; qlra|].
    cbn [vsub vneg vadd vmul].
    assert (HD : (qnth X a - qnth X (a - 1) <> 0)%Qc). { intros K. apply E. transitivity (qnth X a - (qnth X a - qnth X (a - 1)))%Qc; [ring|rewrite K; ring]. }
    change (qnth X a + - qnth X (a - 1))%Qc with (qnth X a - qnth X (a - 1))%Qc. rewrite vdiv_Fin by exact HD. cbn [vadd].
    eexists. split; [split; [lia|split; [lia|exact HJ]]|]. split; [reflexivity|].
    unfold interp_rule; cbv zeta; repeat split; intros; try (exfalso; lia). field. exact HD.
Qed.

(** consequences *)
Lemma qmid_between u v lo hi : (lo <= u -> lo <= v -> u <= hi -> v <= hi -> lo <= (u + v) / (1 + 1) <= hi)%Qc.
Proof.
  intros. assert (P : (0 < 1 + 1)%Qc) by qlra. split.
  - apply (proj2 (qle_div_iff lo (u + v) (1 + 1) P)). qlra.
  - apply (proj2 (qdiv_le_iff hi (u + v) (1 + 1) P)). qlra.
Qed.
Lemma frac_bounds x x0 x1 : (x0 < x -> x < x1 -> 0 < (x - x0) / (x1 - x0) < 1)%Qc.
Proof.
  intros H0 H1. assert (P : (0 < x1 - x0)%Qc) by qlra. split.
  - destruct (Qclt_le_dec 0 ((x - x0) / (x1 - x0))) as [L|L]; [exact L|exfalso]. apply (proj1 (qdiv_le_iff _ _ _ P)) in L. qlra.
  - destruct (Qclt_le_dec ((x - x0) / (x1 - x0)) 1) as [L|L]; [exact L|exfalso]. apply (proj1 (qle_div_iff _ _ _ P)) in L. qlra.
Qed.
Lemma lin_between u v f lo hi : (0 <= f <= 1 -> lo <= u -> lo <= v -> u <= hi -> v <= hi -> lo <= u + (v - u) * f <= hi)%Qc.
Proof.
  intros [F0 F1] A B C D.
  assert (0 <= f * (v - lo))%Qc by qnra. assert (0 <= (1 - f) * (u - lo))%Qc by qnra.
  assert (0 <= f * (hi - v))%Qc by qnra. assert (0 <= (1 - f) * (hi - u))%Qc by qnra.
  split; qlra.
Qed.
(** the value lies between any bounds of the y-values it is computed from *)
Lemma interp_rule_between X Y x a b r lo hi : bracket X x a b -> interp_rule X Y x a b r -> 0 < zlen X ->
  (forall j, 0 <= j < zlen X -> a - 1 <= j <= b -> (a < b -> a <= j < b) -> (lo <= qnth Y j <= hi)%Qc) -> (lo <= r <= hi)%Qc.
Proof.
  intros (Hab & Hbn & HJ) (R1 & R2 & R3 & R4 & R5 & R6 & R7) HN H.
  destruct (Z.eq_dec a (zlen X)) as [E|E]; [rewrite R1 by exact E; apply H; lia|].
  destruct (Z.eq_dec b 0) as [E0|E0]; [rewrite R2 by exact E0; apply H; lia|].
  destruct (Z.lt_ge_cases a b) as [G|G].
  - assert (lo <= qnth Y a <= hi)%Qc as [K1 K2] by (apply H; lia).
    assert (lo <= qnth Y (b - 1) <= hi)%Qc as [K3 K4] by (apply H; lia).
    destruct (Z.eq_dec a 0), (Z.eq_dec b (zlen X)).
    + rewrite R3 by lia. apply qmid_between; assumption.
    + rewrite R4 by lia. split; assumption.
    + rewrite R5 by lia. split; assumption.
    + rewrite R6 by lia. apply qmid_between; assumption.
  - assert (a = b) by lia. subst b. rewrite R7 by lia.
    assert (lo <= qnth Y a <= hi)%Qc as [K1 K2] by (apply H; lia).
    assert (lo <= qnth Y (a - 1) <= hi)%Qc as [K3 K4] by (apply H; lia).
    apply lin_between; try assumption.
    destruct (HJ (a - 1) ltac:(lia)) as (F1 & _ & _). specialize (F1 ltac:(lia)).
    destruct (HJ a ltac:(lia)) as (_ & _ & F3). specialize (F3 ltac:(lia)).
    destruct (frac_bounds x (qnth X (a - 1)) (qnth X a) F1 F3) as [f0 f1]. split; apply Qclt_le_weak; assumption.
Qed.
Lemma bracket_mono X x x' a b a' b' : (x < x')%Qc -> bracket X x a b -> bracket X x' a' b' -> b <= a'.
Proof.
  intros H (A1 & A2 & A3) (B1 & B2 & B3). destruct (Z.le_gt_cases b a') as [G|G]; [exact G|exfalso].
  destruct (A3 a' ltac:(lia)) as (F1 & F2 & _). destruct (B3 a' ltac:(lia)) as (_ & F5 & F6).
  assert (x' <= qnth X a')%Qc. { destruct (Z.lt_ge_cases a' b') as [L|L]; [rewrite F5 by lia; apply Qcle_refl|].
    specialize (F6 ltac:(lia)). qlra. }
  assert (qnth X a' <= x)%Qc. { destruct (Z.lt_ge_cases a' a) as [L|L]; [specialize (F1 L); qlra|]. rewrite F2 by lia. apply Qcle_refl. }
  qlra.
Qed.
Lemma interp_rule_mono X Y x x' a b a' b' r r' : qsorted Y -> zlen X = zlen Y -> 0 < zlen X -> (x <= x')%Qc ->
  bracket X x a b -> bracket X x' a' b' -> interp_rule X Y x a b r -> interp_rule X Y x' a' b' r' -> (r <= r')%Qc.
Proof.
  intros S HL HN Hx HB HB' HR HR'. destruct (qle_lt_or_eq _ _ Hx) as [Hlt|<-].
  2:{ destruct (bracket_unique _ _ _ _ _ _ HB HB') as [<- <-].
      destruct HB as (Hab & Hbn & _). destruct HR as (R1 & R2 & R3 & R4 & R5 & R6 & R7), HR' as (Q1 & Q2 & Q3 & Q4 & Q5 & Q6 & Q7).
      assert (r = r') as ->; [|apply Qcle_refl].
      destruct (Z.eq_dec a (zlen X)); [rewrite R1, Q1 by assumption; reflexivity|].
      destruct (Z.eq_dec b 0); [rewrite R2, Q2 by assumption; reflexivity|].
      destruct (Z.lt_ge_cases a b); [|rewrite R7, Q7 by lia; reflexivity].
      destruct (Z.eq_dec a 0), (Z.eq_dec b (zlen X)).
      - rewrite R3, Q3 by lia; reflexivity.
      - rewrite R4, Q4 by lia; reflexivity.
      - rewrite R5, Q5 by lia; reflexivity.
      - rewrite R6, Q6 by lia; reflexivity. }
  pose proof (bracket_mono _ _ _ _ _ _ _ Hlt HB HB') as Hba. pose proof HB as (Hab & Hbn & HJ). pose proof HB' as (Hab' & Hbn' & HJ').
  assert (YM : forall i j, 0 <= i -> i <= j -> j < zlen X -> (qnth Y i <= qnth Y j)%Qc) by (intros; apply qnth_mono; auto; lia).
  set (hiI := if a <? b then b - 1 else if b =? zlen X then zlen X - 1 else b).
  set (loI := if a' <? b' then a' else if a' =? 0 then 0 else a' - 1).
  assert (U : (r <= qnth Y hiI)%Qc).
  { assert (qnth Y (Z.max 0 (a - 1)) <= r <= qnth Y hiI)%Qc as [_ K]; [|exact K].
    apply (interp_rule_between X Y x a b); auto. intros j Hj J1 J2. split; apply YM; unfold hiI;
    destruct (Z.ltb_spec a b); try (destruct (Z.eqb_spec b (zlen X))); lia. }
  assert (D : (qnth Y loI <= r')%Qc).
  { assert (qnth Y loI <= r' <= qnth Y (zlen X - 1))%Qc as [K _]; [|exact K].
    apply (interp_rule_between X Y x' a' b'); auto. intros j Hj J1 J2. split; apply YM; unfold loI;
    destruct (Z.ltb_spec a' b'); try (destruct (Z.eqb_spec a' 0)); lia. }
  destruct (Z.le_gt_cases hiI loI) as [G|G].
  { eapply Qcle_trans; [exact U|]. eapply Qcle_trans; [|exact D]. apply YM; try lia; unfold hiI, loI in *;
    destruct (Z.ltb_spec a b); destruct (Z.ltb_spec a' b'); try (destruct (Z.eqb_spec b (zlen X))); try (destruct (Z.eqb_spec a' 0)); lia. }
  (* remaining: same open interval, or both below / both above *)
  assert (C : a = b /\ a' = b' /\ a = a').
  { unfold hiI, loI in G. destruct (Z.ltb_spec a b); destruct (Z.ltb_spec a' b'); try (destruct (Z.eqb_spec b (zlen X))); try (destruct (Z.eqb_spec a' 0)); lia. }
  destruct C as (<- & <- & <-).
  destruct HR as (R1 & R2 & _ & _ & _ & _ & R7), HR' as (Q1 & Q2 & _ & _ & _ & _ & Q7).
  destruct (Z.eq_dec a (zlen X)) as [E|E]; [rewrite R1, Q1 by exact E; apply Qcle_refl|].
  destruct (Z.eq_dec a 0) as [E0|E0]; [rewrite R2, Q2 by exact E0; apply Qcle_refl|].
  rewrite R7, Q7 by lia.
  destruct (HJ (a - 1) ltac:(lia)) as (F1 & _ & _). specialize (F1 ltac:(lia)).
  destruct (HJ a ltac:(lia)) as (_ & _ & F3). specialize (F3 ltac:(lia)).
  pose proof (YM (a - 1) a ltac:(lia) ltac:(lia) ltac:(lia)) as Y1.
  assert (P : (0 < qnth X a - qnth X (a - 1))%Qc) by qlra.
  assert (M : ((x - qnth X (a - 1)) / (qnth X a - qnth X (a - 1)) <= (x' - qnth X (a - 1)) / (qnth X a - qnth X (a - 1)))%Qc).
  { apply (proj2 (qdiv_le_iff _ _ _ P)).
    assert (((x' - qnth X (a - 1)) / (qnth X a - qnth X (a - 1)) * (qnth X a - qnth X (a - 1)) = x' - qnth X (a - 1))%Qc) as ->.
    { field. intros K. rewrite K in P. qlra. } qlra. }
  revert M. generalize ((x - qnth X (a - 1)) / (qnth X a - qnth X (a - 1)))%Qc ((x' - qnth X (a - 1)) / (qnth X a - qnth X (a - 1)))%Qc.
  intros f f' M. assert (0 <= (f' - f) * (qnth Y a - qnth Y (a - 1)))%Qc by qnra. qlra.
Qed.

(** ** Memory safety *)
Lemma lower_loop_range x l : forall base idx i, lower_loop x base idx l = Some i ->
  idx = Some i \/ base <= i < base + zlen l.
Proof.
  induction l as [|c l IH]; intros base idx i; cbn [lower_loop]; [tauto|]. rewrite zlen_cons. pose proof (zlen_nonneg l).
  destruct (is_valid c); [destruct (vltb c x); [|destruct (veqb c x); [|destruct (vltb x c)]]|]; intros E.
  - right. destruct (IH _ _ _ E) as [K|K]; [injection K as <-|]; lia.
  - injection E as <-. lia.
  - tauto.
  - destruct (IH _ _ _ E) as [K|K]; [tauto|lia].
  - destruct (IH _ _ _ E) as [K|K]; [tauto|lia].
Qed.
Lemma lower_loop_some x l : forall base i, exists j, lower_loop x base (Some i) l = Some j.
Proof.
  induction l as [|c l IH]; intros base i; cbn [lower_loop]; [eauto|].
  destruct (is_valid c); [destruct (vltb c x); [|destruct (veqb c x); [|destruct (vltb x c)]]|]; eauto.
Qed.
Lemma upper_loop_range x l : forall base idx i, upper_loop x base idx l = Some i ->
  idx = Some i \/ base - zlen l < i <= base.
Proof.
  induction l as [|c l IH]; intros base idx i; cbn [upper_loop]; [tauto|]. rewrite zlen_cons. pose proof (zlen_nonneg l).
  destruct (is_valid c); [destruct (vltb x c); [|destruct (veqb c x); [|destruct (vltb c x)]]|]; intros E.
  - right. destruct (IH _ _ _ E) as [K|K]; [injection K as <-|]; lia.
  - injection E as <-. lia.
  - tauto.
  - destruct (IH _ _ _ E) as [K|K]; [tauto|lia].
  - destruct (IH _ _ _ E) as [K|K]; [tauto|lia].
Qed.
Lemma upper_loop_some x l : forall base i, exists j, upper_loop x base (Some i) l = Some j.
Proof.
  induction l as [|c l IH]; intros base i; cbn [upper_loop]; [eauto|].
  destruct (is_valid c); [destruct (vltb x c); [|destruct (veqb c x); [|destruct (vltb c x)]]|]; eauto.
Qed.
Lemma znth_in {A} (l : list A) i : 0 <= i < zlen l -> exists v, znth l i = Ok v.
Proof. apply znth_some. Qed.
Lemma interpolate_safe x X Y x0 xl :
  znth X 0 = Ok (Fin x0) -> znth X (zlen X - 1) = Ok (Fin xl) -> zlen X = zlen Y ->
  exists v, interpolate x X Y = Ok v.
Proof.
  intros H0 HN HL. unfold interpolate. destruct x as [| | |x]; cbn [is_valid negb]; eauto.
  replace (zlen X =? zlen Y) with true by lia. pose proof (znth_range _ _ _ H0).
  replace (zlen X =? 0) with false by lia. rewrite HN, H0. cbn [bind negb].
  change (vltb (Fin ?u) (Fin ?v)) with (qltb u v).
  destruct (qltb_spec xl x); [apply znth_in; lia|]. destruct (qltb_spec x x0); [apply znth_in; lia|].
  assert (exists i0, lower_loop (Fin x) 0 None X = Some i0 /\ 0 <= i0 < zlen X) as (i0 & E0 & R0).
  { destruct X as [|c X]; [change (zlen (@nil val)) with 0 in *; lia|]. rewrite znth_cons0 in H0. injection H0 as ->.
    assert (exists i, lower_loop (Fin x) 0 None (Fin x0 :: X) = Some i) as (i & Ei).
    { cbn [lower_loop is_valid]. change (vltb (Fin ?u) (Fin ?v)) with (qltb u v). rewrite veqb_Fin.
      destruct (qltb_spec x0 x); [apply lower_loop_some|]. destruct (qeqb_spec x0 x); [eauto|].
      exfalso. apply n2. apply Qcle_antisym; qlra. }
    exists i. split; [exact Ei|]. destruct (lower_loop_range _ _ _ _ _ Ei); [discriminate|lia]. }
  assert (exists i1, upper_loop (Fin x) (zlen X - 1) None (rev X) = Some i1 /\ 0 <= i1 < zlen X) as (i1 & E1 & R1).
  { assert (exists c t, rev X = c :: t) as (c & t & ER).
    { destruct (rev X) as [|c t] eqn:ER; [|eauto]. apply (f_equal (@zlen val)) in ER. rewrite zlen_rev in ER.
      change (zlen (@nil val)) with 0 in ER. lia. }
    assert (c = Fin xl) as ->.
    { assert (EX : X = rev t ++ [c]) by (rewrite <- (rev_involutive X), ER; reflexivity).
      rewrite EX in HN. rewrite zlen_app, zlen_cons in HN. change (zlen (@nil val)) with 0 in HN.
      rewrite znth_app_r in HN by lia. replace (zlen (rev t) + (0 + 1) - 1 - zlen (rev t)) with 0 in HN by lia.
      rewrite znth_cons0 in HN. congruence. }
    assert (exists i, upper_loop (Fin x) (zlen X - 1) None (rev X) = Some i) as (i & Ei).
    { rewrite ER. cbn [upper_loop is_valid]. change (vltb (Fin ?u) (Fin ?v)) with (qltb u v). rewrite veqb_Fin.
      destruct (qltb_spec x xl); [apply upper_loop_some|]. destruct (qeqb_spec xl x); [eauto|].
      exfalso. apply n2. apply Qcle_antisym; qlra. }
    exists i. split; [exact Ei|]. destruct (upper_loop_range _ _ _ _ _ Ei); [discriminate|]. rewrite zlen_rev in *. lia. }
  unfold get_lower_index, get_upper_index. rewrite E0, E1. cbn [of_index bind].
  destruct (znth_in X i0 R0) as (? & ->). destruct (znth_in X i1 R1) as (? & ->).
  destruct (znth_in Y i0 ltac:(lia)) as (? & ->). destruct (znth_in Y i1 ltac:(lia)) as (? & ->). cbn [bind].
  destruct (veqb x1 x2); eauto.
Qed.

(** ** Conjunctions used by the property theorems *)
Lemma bracket_lower X x a b : bracket X x a b -> (exists v, In v X /\ (v <= x)%Qc) -> 0 < b.
Proof.
  intros (H1 & H2 & H3) (v & Hv & L). destruct (In_znth _ _ Hv) as (j & Hj). pose proof (znth_range _ _ _ Hj) as Rj.
  rewrite qnth_znth in Hj by exact Rj. injection Hj as <-.
  destruct (H3 j Rj) as (_ & _ & F). destruct (Z.lt_ge_cases j b); [lia|]. specialize (F ltac:(lia)). exfalso. qlra.
Qed.
Lemma bracket_upper X x a b : bracket X x a b -> (exists v, In v X /\ (x <= v)%Qc) -> a < zlen X.
Proof.
  intros (H1 & H2 & H3) (v & Hv & L). destruct (In_znth _ _ Hv) as (j & Hj). pose proof (znth_range _ _ _ Hj) as Rj.
  rewrite qnth_znth in Hj by exact Rj. injection Hj as <-.
  destruct (H3 j Rj) as (F & _ & _). destruct (Z.lt_ge_cases j a); [|lia]. specialize (F ltac:(lia)). exfalso. qlra.
Qed.
Lemma c08_all X x : qsorted X ->
  ((exists v, In v X /\ (v <= x)%Qc) -> exists i, get_lower_index (Fin x) (map Fin X) = Ok i /\ 0 <= i < zlen X /\
     (qnth X i <= x)%Qc /\ forall v, In v X -> (v <= x)%Qc -> (v <= qnth X i)%Qc) /\
  ((exists v, In v X /\ (x <= v)%Qc) -> exists i, get_upper_index (Fin x) (map Fin X) = Ok i /\ 0 <= i < zlen X /\
     (x <= qnth X i)%Qc /\ forall v, In v X -> (x <= v)%Qc -> (qnth X i <= v)%Qc) /\
  ((forall v, In v X -> (x < v)%Qc) -> get_lower_index (Fin x) (map Fin X) = UB) /\
  ((forall v, In v X -> (v < x)%Qc) -> get_upper_index (Fin x) (map Fin X) = UB).
Proof.
  intros S. destruct (indices_spec x X S) as (a & b & HB & EL & EU). pose proof HB as (Hab & Hbn & HJ).
  assert (P : forall v, In v X -> exists j, 0 <= j < zlen X /\ v = qnth X j).
  { intros v Hv. destruct (In_znth _ _ Hv) as (j & Hj). pose proof (znth_range _ _ _ Hj) as Rj.
    rewrite qnth_znth in Hj by exact Rj. exists j. split; congruence. }
  rewrite EL, EU. split; [|split; [|split]].
  - intros Hv. pose proof (bracket_lower _ _ _ _ HB Hv) as Hb.
    set (i := if a <? b then a else a - 1).
    exists i. assert (Hi : 0 <= i < zlen X) by (unfold i; destruct (Z.ltb_spec a b); lia).
    split. { unfold i. destruct (Z.ltb_spec a b); [reflexivity|]. replace (a =? 0) with false by lia. reflexivity. }
    split; [exact Hi|]. destruct (HJ i Hi) as (F1 & F2 & F3).
    split. { unfold i in *. destruct (Z.ltb_spec a b); [rewrite F2 by lia; apply Qcle_refl|]. apply Qclt_le_weak, F1. lia. }
    intros v Hin Hle. destruct (P v Hin) as (j & Hj & ->). destruct (HJ j Hj) as (G1 & G2 & G3).
    destruct (Z.lt_ge_cases j b) as [Lj|Lj]; [|specialize (G3 Lj); exfalso; qlra].
    unfold i in *. destruct (Z.ltb_spec a b).
    + rewrite F2 by lia. exact Hle.
    + apply qnth_mono; auto; lia.
  - intros Hv. pose proof (bracket_upper _ _ _ _ HB Hv) as Hb.
    set (i := if a <? b then b - 1 else b).
    exists i. assert (Hi : 0 <= i < zlen X) by (unfold i; destruct (Z.ltb_spec a b); lia).
    split. { unfold i. destruct (Z.ltb_spec a b); [reflexivity|]. replace (b =? zlen X) with false by lia. reflexivity. }
    split; [exact Hi|]. destruct (HJ i Hi) as (F1 & F2 & F3).
    split. { unfold i in *. destruct (Z.ltb_spec a b); [rewrite F2 by lia; apply Qcle_refl|]. apply Qclt_le_weak, F3. lia. }
    intros v Hin Hle. destruct (P v Hin) as (j & Hj & ->). destruct (HJ j Hj) as (G1 & G2 & G3).
    destruct (Z.lt_ge_cases j a) as [Lj|Lj]; [specialize (G1 Lj); exfalso; qlra|].
    unfold i in *. destruct (Z.ltb_spec a b).
    + rewrite F2 by lia. exact Hle.
    + apply qnth_mono; auto; lia.
  - intros Hall. assert (b = 0). { destruct (Z.eq_dec b 0); [assumption|exfalso]. destruct (HJ 0 ltac:(lia)) as (G1 & G2 & _).
      assert (I : In (qnth X 0) X) by (apply qnth_In; lia). specialize (Hall _ I).
      destruct (Z.eq_dec a 0); [rewrite G2 in Hall by lia|specialize (G1 ltac:(lia))]; qlra. }
    subst. replace (a <? 0) with false by lia. replace (a =? 0) with true by lia. reflexivity.
  - intros Hall. assert (a = zlen X). { destruct (Z.eq_dec a (zlen X)); [assumption|exfalso]. destruct (HJ (zlen X - 1) ltac:(lia)) as (_ & G2 & G3).
      assert (I : In (qnth X (zlen X - 1)) X) by (apply qnth_In; lia). specialize (Hall _ I).
      destruct (Z.eq_dec b (zlen X)); [rewrite G2 in Hall by lia|specialize (G3 ltac:(lia))]; qlra. }
    replace (a <? b) with false by lia. replace (b =? zlen X) with true by lia. reflexivity.
Qed.
Lemma c09_all X Y : qsorted X -> X <> [] -> zlen X = zlen Y ->
  (forall x, exists a b r, bracket X x a b /\ interpolate (Fin x) (map Fin X) (map Fin Y) = Ok (Fin r) /\ interp_rule X Y x a b r) /\
  (forall x r, interpolate (Fin x) (map Fin X) (map Fin Y) = Ok (Fin r) -> (qnth X (zlen X - 1) < x)%Qc -> r = qnth Y (zlen X - 1)) /\
  (forall x r, interpolate (Fin x) (map Fin X) (map Fin Y) = Ok (Fin r) -> (x < qnth X 0)%Qc -> r = qnth Y 0) /\
  (forall i r, 0 <= i < zlen X -> (forall j, 0 <= j < zlen X -> j <> i -> qnth X j <> qnth X i) ->
     interpolate (Fin (qnth X i)) (map Fin X) (map Fin Y) = Ok (Fin r) -> r = qnth Y i) /\
  (forall x r lo hi, is_min Y lo -> is_max Y hi -> interpolate (Fin x) (map Fin X) (map Fin Y) = Ok (Fin r) -> (lo <= r <= hi)%Qc) /\
  (qsorted Y -> forall x x' r r', (x <= x')%Qc -> interpolate (Fin x) (map Fin X) (map Fin Y) = Ok (Fin r) ->
     interpolate (Fin x') (map Fin X) (map Fin Y) = Ok (Fin r') -> (r <= r')%Qc).
Proof.
  intros S Hne HL. pose proof (zlen_pos X Hne) as HN.
  split; [intros x; apply interpolate_spec; assumption|].
  assert (K : forall x r, interpolate (Fin x) (map Fin X) (map Fin Y) = Ok (Fin r) -> exists a b, bracket X x a b /\ interp_rule X Y x a b r).
  { intros x r E. destruct (interpolate_spec x X Y S Hne HL) as (a & b & r' & HB & E' & R). rewrite E in E'. injection E' as ->. eauto. }
  split; [|split; [|split; [|split]]].
  - intros x r E L. destruct (K x r E) as (a & b & (Hab & Hbn & HJ) & R1 & _). apply R1.
    destruct (Z.eq_dec a (zlen X)); [assumption|exfalso]. destruct (HJ (zlen X - 1) ltac:(lia)) as (_ & G2 & G3).
    destruct (Z.eq_dec b (zlen X)); [rewrite G2 in L by lia|specialize (G3 ltac:(lia))]; qlra.
  - intros x r E L. destruct (K x r E) as (a & b & (Hab & Hbn & HJ) & _ & R2 & _). apply R2.
    destruct (Z.eq_dec b 0); [assumption|exfalso]. destruct (HJ 0 ltac:(lia)) as (G1 & G2 & _).
    destruct (Z.eq_dec a 0); [rewrite G2 in L by lia|specialize (G1 ltac:(lia))]; qlra.
  - intros i r Hi U E. destruct (K _ r E) as (a & b & (Hab & Hbn & HJ) & R1 & R2 & R3 & R4 & R5 & R6 & R7).
    assert (Ha : a <= i). { destruct (Z.le_gt_cases a i) as [|G]; [assumption|exfalso]. destruct (HJ i Hi) as (F & _ & _). specialize (F G). qlra. }
    assert (Hb : i < b). { destruct (Z.lt_ge_cases i b) as [|G]; [assumption|exfalso]. destruct (HJ i Hi) as (_ & _ & F). specialize (F G). qlra. }
    assert (a = i). { destruct (Z.eq_dec a i); [assumption|exfalso]. apply (U a ltac:(lia) ltac:(lia)). apply (HJ a ltac:(lia)). lia. }
    assert (b = i + 1). { destruct (Z.eq_dec b (i + 1)); [assumption|exfalso]. apply (U (b - 1) ltac:(lia) ltac:(lia)). apply (HJ (b - 1) ltac:(lia)). lia. }
    subst a b. replace (i + 1 - 1) with i in * by lia.
    assert (A : ((qnth Y i + qnth Y i) / (1 + 1) = qnth Y i)%Qc) by (field; intros Z0; apply two_ne0; exact Z0).
    destruct (Z.eq_dec i 0), (Z.eq_dec (i + 1) (zlen X)).
    + rewrite R3 by lia. exact A.
    + apply R4; lia.
    + apply R5; lia.
    + rewrite R6 by lia. exact A.
  - intros x r lo hi [_ Hlo] [_ Hhi] E. destruct (K _ r E) as (a & b & HB & HR).
    apply (interp_rule_between X Y x a b r); auto. intros j Hj _ _. assert (In (qnth Y j) Y) by (apply qnth_In; lia). split; auto.
  - intros SY x x' r r' Hx E E'. destruct (K _ _ E) as (a & b & HB & HR). destruct (K _ _ E') as (a' & b' & HB' & HR').
    eapply interp_rule_mono; eauto.
Qed.
