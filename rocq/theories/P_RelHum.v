(** Relative humidity. *)
From Coq Require Import Qround.
From Verif Require Import Base QcTac ListLib P_Stat P_Even M_RelHum S_RelHum.
Local Open Scope Z_scope.

Definition ta (k : Z) : Qc := Q2Qc (nth (Z.to_nat k) ewt_micro 0 # 1000000).
Lemma ewt_ta k : 0 <= k <= 40 -> znth ewt k = Ok (Fin (ta k)).
Proof.
  intros H. assert (A : forallb (fun k => match znth ewt k with Ok (Fin q) => qeqb q (ta k) | _ => false end) (zrange 0 41) = true) by (vm_compute; reflexivity).
  rewrite forallb_forall in A. assert (I : In k (zrange 0 41)) by (apply in_zrange; lia). specialize (A _ I).
  destruct (znth ewt k) as [[| | |q]| | |]; try discriminate. destruct (qeqb_spec q (ta k)); [subst; reflexivity|discriminate].
Qed.
Lemma ta_step k : 0 <= k < 40 -> (0 < ta k /\ ta k < ta (k + 1))%Qc.
Proof.
  intros H. assert (A : forallb (fun k => qltb 0 (ta k) && qltb (ta k) (ta (k + 1))) (zrange 0 40) = true) by (vm_compute; reflexivity).
  rewrite forallb_forall in A. assert (I : In k (zrange 0 40)) by (apply in_zrange; lia). specialize (A _ I). apply andb_prop in A. destruct A as [A B].
  destruct (qltb_spec 0 (ta k)); [|discriminate]. destruct (qltb_spec (ta k) (ta (k + 1))); [|discriminate]. auto.
Qed.
Lemma ta_mono i j : 0 <= i -> i <= j -> j <= 40 -> (ta i <= ta j)%Qc.
Proof.
  intros Hi H Hj. assert (forall n, i + Z.of_nat n <= 40 -> (ta i <= ta (i + Z.of_nat n))%Qc) as G.
  { induction n as [|n IH]; intros Hn; [rewrite Z.add_0_r; apply Qcle_refl|]. apply (Qcle_trans _ (ta (i + Z.of_nat n))); [apply IH; lia|].
    replace (i + Z.of_nat (S n)) with (i + Z.of_nat n + 1) by lia. apply Qclt_le_weak. apply ta_step. lia. }
  specialize (G (Z.to_nat (j - i))). rewrite Z2Nat.id in G by lia. replace (i + (j - i)) with j in G by lia. apply G. lia.
Qed.
(** the interpolated value at table coordinate x *)
Definition tval (x : Qc) : Qc := (ta (Qfloor x) + (ta (Qfloor x + 1) - ta (Qfloor x)) * (x - qz (Qfloor x)))%Qc.
Definition clampq (x : Qc) : Qc := if qltb x 0 then 0%Qc else if qltb (qz 39) x then qz 39 else x.
Lemma clampq_range x : (0 <= clampq x /\ clampq x <= qz 39)%Qc.
Proof.
  assert (0 <= qz 39)%Qc by (apply (qz_le 0 39); lia). unfold clampq. set (m := qz 39) in *. clearbody m. qcase; try (split; qlra). qcase; split; qlra.
Qed.
Lemma clampq_mono x y : (x <= y)%Qc -> (clampq x <= clampq y)%Qc.
Proof.
  intros H. assert (0 <= qz 39)%Qc by (apply (qz_le 0 39); lia). unfold clampq. set (m := qz 39) in *. clearbody m.
  destruct (qltb_spec x 0); destruct (qltb_spec y 0); try qlra; destruct (qltb_spec m y); try qlra; destruct (qltb_spec m x); qlra.
Qed.
Lemma floor_range x : (0 <= x <= qz 39)%Qc -> 0 <= Qfloor x <= 39 /\ (qz (Qfloor x) <= x)%Qc /\ (x < qz (Qfloor x) + 1)%Qc.
Proof.
  intros [H1 H2]. split; [split|].
  - rewrite <- (qfloor_qz 0). apply qfloor_mono. exact H1.
  - rewrite <- (qfloor_qz 39). apply qfloor_mono. exact H2.
  - split; [apply qfloor_le|]. pose proof (Qlt_floor x) as L. unfold qz. unfold Qclt. rewrite this_add, this_Q2Qc. 
    rewrite inject_Z_plus in L. exact L.
Qed.
Lemma tval_between x : (0 <= x <= qz 39)%Qc -> (0 < tval x /\ ta (Qfloor x) <= tval x <= ta (Qfloor x + 1))%Qc.
Proof.
  intros H. destruct (floor_range _ H) as (F & F1 & F2). destruct (ta_step (Qfloor x)) as [P Q]; [lia|]. unfold tval.
  set (l := Qfloor x) in *. set (a := ta l) in *. set (b := ta (l + 1)) in *. set (z := qz l) in *. clearbody a b z. clear l F H.
  assert (0 <= (b - a) * (x - z))%Qc by qnra. assert ((b - a) * (x - z) <= b - a)%Qc by qnra. repeat split; qlra.
Qed.
Lemma tval_mono x y : (0 <= x)%Qc -> (x <= y)%Qc -> (y <= qz 39)%Qc -> (tval x <= tval y)%Qc.
Proof.
  intros H0 H H9. assert (HX : (0 <= x <= qz 39)%Qc) by (split; [exact H0|eapply Qcle_trans; eauto]). assert (HY : (0 <= y <= qz 39)%Qc) by (split; [eapply Qcle_trans; eauto|exact H9]).
  destruct (floor_range _ HX) as (FX & _). destruct (floor_range _ HY) as (FY & _). pose proof (qfloor_mono _ _ H) as FM.
  destruct (Z.eq_dec (Qfloor x) (Qfloor y)) as [E|E].
  - unfold tval. rewrite E. destruct (ta_step (Qfloor y)) as [_ Q]; [lia|]. set (a := ta (Qfloor y)) in *. set (b := ta (Qfloor y + 1)) in *. set (z := qz (Qfloor y)) in *. clearbody a b z.
    assert (0 <= (b - a) * (y - x))%Qc by (clear - H Q; qnra). clear - H1. qnra.
  - apply (Qcle_trans _ (ta (Qfloor x + 1))); [apply tval_between; exact HX|]. apply (Qcle_trans _ (ta (Qfloor y))); [apply ta_mono; lia|]. apply tval_between; exact HY.
Qed.
Definition coord (t : Qc) : Qc := clampq ((t - Q2Qc (17316 # 100)) * Q2Qc (2 # 10))%Qc.
Lemma ewt_at_eq t : ewt_at (Fin t) = Ok (Fin (tval (coord t))).
Proof.
  unfold ewt_at. change (fq (17316 # 100)) with (Fin (Q2Qc (17316 # 100))). change (fq (2 # 10)) with (Fin (Q2Qc (2 # 10))). cbn [vsub vadd vneg vmul vltb fz].
  unfold fz. cbn [vltb]. fold (t - Q2Qc (17316 # 100))%Qc. rewrite qz_0.
  set (x := ((t - Q2Qc (17316 # 100)) * Q2Qc (2 # 10))%Qc).
  replace (if qltb x 0 then Fin 0 else if qltb (qz 39) x then Fin (qz 39) else Fin x) with (Fin (clampq x)) by (unfold clampq; destruct (qltb x 0); [reflexivity|destruct (qltb (qz 39) x); reflexivity]).
  change (clampq x) with (coord t). pose proof (clampq_range x) as R. change (clampq x) with (coord t) in R. cbn [to_int bind].
  rewrite ztrunc_floor by apply R. destruct (floor_range _ R) as (F & _). rewrite !ewt_ta by lia. cbn [bind vsub vadd vneg vmul fz]. reflexivity.
Qed.
Lemma coord_mono t t' : (t <= t')%Qc -> (coord t <= coord t')%Qc.
Proof. intros H. apply clampq_mono. assert (0 < Q2Qc (2 # 10))%Qc by (vm_compute; reflexivity). set (k := Q2Qc (2 # 10)) in *. set (o := Q2Qc (17316 # 100)) in *. clearbody k o. qnra. Qed.
Lemma rh_eq t d : (d < t)%Qc -> relative_humidity (Fin t) (Fin d) = Ok (Fin (tval (coord d) / tval (coord t)))%Qc /\
  (0 <= tval (coord d) / tval (coord t) <= 1)%Qc.
Proof.
  intros H. unfold relative_humidity. cbn [is_valid andb]. rewrite vleb_Fin. destruct (qleb_spec t d) as [L|L]; [exfalso; qlra|]. rewrite !ewt_at_eq. cbn [bind].
  assert (PT : (0 < tval (coord t))%Qc) by (apply tval_between; apply clampq_range). assert (PD : (0 < tval (coord d))%Qc) by (apply tval_between; apply clampq_range).
  assert (M : (tval (coord d) <= tval (coord t))%Qc) by (apply tval_mono; [apply clampq_range|apply coord_mono; qlra|apply clampq_range]).
  set (a := tval (coord d)) in *. set (b := tval (coord t)) in *. clearbody a b. assert (B : b <> 0%Qc) by (intros ->; qlra).
  assert (Q : (0 <= a / b <= 1)%Qc). { assert (E : (a / b * b = a)%Qc) by (field; exact B). set (q := (a / b)%Qc) in *. clearbody q. subst a. split; qnra. }
  split; [|exact Q]. cbn [vdiv]. destruct (qeqb_spec b 0); [contradiction|]. unfold fz. cbn [vltb]. rewrite qz_0, qz_1.
  set (q := (a / b)%Qc) in *. clearbody q. destruct (qltb_spec q 0); [exfalso; qlra|]. cbn [vltb]. destruct (qltb_spec 1 q); [exfalso; qlra|]. reflexivity.
Qed.
Lemma sat_ok t : saturation t (tval (coord t)).
Proof.
  assert (K : (Q2Qc (2 # 10) * qz 5 = 1)%Qc) by (apply Qc_is_canon; vm_compute; reflexivity). assert (KP : (0 < Q2Qc (2 # 10))%Qc) by (vm_compute; reflexivity).
  assert (K39 : ((Q2Qc (36816 # 100) - Q2Qc (17316 # 100)) * Q2Qc (2 # 10) = qz 39)%Qc) by (apply Qc_is_canon; vm_compute; reflexivity).
  split; [|split].
  - intros H. assert (coord t = 0%Qc) as ->.
    { unfold coord, clampq. set (x := ((t - Q2Qc (17316 # 100)) * Q2Qc (2 # 10))%Qc). assert (x <= 0)%Qc. { unfold x. set (k := Q2Qc (2 # 10)) in *. set (o := Q2Qc (17316 # 100)) in *. clearbody k o. clear - H KP. qnra. }
      assert (0 <= qz 39)%Qc by (apply (qz_le 0 39); lia). set (m := qz 39) in *. clearbody m x. destruct (qltb_spec x 0); [reflexivity|]. destruct (qltb_spec m x); [exfalso; qlra|]. qlra. }
    unfold table. rewrite (ewt_ta 0) by lia. do 2 f_equal. unfold tval. change (Qfloor 0%Qc) with 0. rewrite qz_0. ring.
  - intros H. assert (coord t = qz 39) as ->.
    { unfold coord, clampq. set (x := ((t - Q2Qc (17316 # 100)) * Q2Qc (2 # 10))%Qc). assert (qz 39 <= x)%Qc. { rewrite <- K39. unfold x. set (k := Q2Qc (2 # 10)) in *. set (o := Q2Qc (17316 # 100)) in *. set (h := Q2Qc (36816 # 100)) in *. clearbody k o h. clear - H KP. qnra. }
      assert (0 <= qz 39)%Qc by (apply (qz_le 0 39); lia). set (m := qz 39) in *. clearbody m x. destruct (qltb_spec x 0); [exfalso; qlra|]. destruct (qltb_spec m x); [reflexivity|]. qlra. }
    unfold table. rewrite (ewt_ta 39) by lia. do 2 f_equal. unfold tval. rewrite qfloor_qz. ring.
  - intros l f a b Hl [F1 F2] E TA TB. assert (C : coord t = (qz l + f)%Qc).
    { unfold coord. assert (X : ((t - Q2Qc (17316 # 100)) * Q2Qc (2 # 10) = qz l + f)%Qc). { rewrite E. set (k := Q2Qc (2 # 10)) in *. set (o := Q2Qc (17316 # 100)) in *. clearbody k o.
        transitivity ((k * qz 5) * (qz l + f))%Qc; [ring|]. rewrite K. ring. }
      rewrite X. unfold clampq. assert (0 <= qz l)%Qc by (apply (qz_le 0 l); lia). assert (L : (qz (l + 1) <= qz 39)%Qc) by (apply qz_le; lia). rewrite qz_add, qz_1 in L.
      set (m := qz 39) in *. set (z := qz l) in *. clearbody m z. destruct (qltb_spec (z + f) 0); [exfalso; qlra|]. destruct (qltb_spec m (z + f)); [exfalso; qlra|]. reflexivity. }
    rewrite C. unfold tval. assert (FL : Qfloor (qz l + f)%Qc = l). { apply qfloor_unique. split; qlra. } rewrite FL.
    unfold table in TA, TB. rewrite ewt_ta in TA, TB by lia. injection TA as <-. injection TB as <-. ring.
Qed.
(** relative humidity: value, range, monotonicity, missing input *)
Lemma c67_relhum :
  (forall t d, exists r, relative_humidity (Fin t) (Fin d) = Ok (Fin r) /\ (0 <= r)%Qc /\ (r <= 1)%Qc /\ ((t <= d)%Qc -> r = 1%Qc) /\
     ((d < t)%Qc -> exists es e, saturation t es /\ saturation d e /\ (0 < es)%Qc /\ r = (e / es)%Qc)) /\
  (forall t d d' r r', (d <= d')%Qc -> relative_humidity (Fin t) (Fin d) = Ok (Fin r) -> relative_humidity (Fin t) (Fin d') = Ok (Fin r') -> (r <= r')%Qc) /\
  (forall t t' d r r', (t <= t')%Qc -> relative_humidity (Fin t) (Fin d) = Ok (Fin r) -> relative_humidity (Fin t') (Fin d) = Ok (Fin r') -> (r' <= r)%Qc) /\
  (forall t d, is_valid t = false \/ is_valid d = false -> relative_humidity t d = Ok MV).
Proof.
  assert (SAT : forall t d, (t <= d)%Qc -> relative_humidity (Fin t) (Fin d) = Ok (Fin 1)).
  { intros t d H. unfold relative_humidity. cbn [is_valid andb]. rewrite vleb_Fin. destruct (qleb_spec t d); [reflexivity|contradiction]. }
  assert (CASE : forall t d : Qc, (t <= d)%Qc \/ (d < t)%Qc) by (intros t d; destruct (qleb_spec t d); [left; auto|right; apply Qcnot_le_lt; auto]).
  assert (POS : forall t, (0 < tval (coord t))%Qc) by (intros; apply tval_between; apply clampq_range).
  assert (MON : forall t t', (t <= t')%Qc -> (tval (coord t) <= tval (coord t'))%Qc) by (intros; apply tval_mono; [apply clampq_range|apply coord_mono; auto|apply clampq_range]).
  assert (DIV : forall a b, b <> 0%Qc -> (a / b * b = a)%Qc) by (intros; field; auto).
  split; [|split; [|split]].
  - intros t d. destruct (CASE t d) as [H|H].
    + exists 1%Qc. split; [apply SAT; auto|]. split; [vm_compute; discriminate|]. split; [apply Qcle_refl|]. split; [auto|]. intros C. exfalso. qlra.
    + destruct (rh_eq t d H) as [E [R1 R2]]. eexists. split; [exact E|]. split; [exact R1|]. split; [exact R2|]. split; [intros C; exfalso; qlra|].
      intros _. exists (tval (coord t)), (tval (coord d)). split; [apply sat_ok|]. split; [apply sat_ok|]. split; [apply POS|reflexivity].
  - intros t d d' r r' H E E'. destruct (CASE t d') as [H'|H'].
    + rewrite SAT in E' by exact H'. injection E' as <-. destruct (CASE t d) as [K|K]; [rewrite SAT in E by exact K; injection E as <-; apply Qcle_refl|].
      destruct (rh_eq t d K) as [F [_ R]]. rewrite F in E. injection E as <-. exact R.
    + destruct (rh_eq t d' H') as [F' _]. rewrite F' in E'. destruct (rh_eq t d) as [F _]; [qlra|]. rewrite F in E. injection E as <-. injection E' as <-.
      pose proof (MON _ _ H). pose proof (POS t). set (a := tval (coord d)) in *. set (b := tval (coord d')) in *. set (c := tval (coord t)) in *. clearbody a b c.
      apply Qcmult_le_compat_r; [assumption|]. apply Qclt_le_weak. assert (C : c <> 0%Qc) by (intros ->; qlra). pose proof (DIV 1%Qc c C) as D. unfold Qcdiv in D. rewrite Qcmult_1_l in D.
      set (i := (/ c)%Qc) in *. clearbody i. clear - D H1. qnra.
  - intros t t' d r r' H E E'. destruct (CASE t d) as [K|K].
    + rewrite SAT in E by exact K. injection E as <-. destruct (CASE t' d) as [K'|K']; [rewrite SAT in E' by exact K'; injection E' as <-; apply Qcle_refl|].
      destruct (rh_eq t' d K') as [F [_ R]]. rewrite F in E'. injection E' as <-. exact R.
    + destruct (rh_eq t d K) as [F _]. rewrite F in E. destruct (rh_eq t' d) as [F' _]; [qlra|]. rewrite F' in E'. injection E as <-. injection E' as <-.
      pose proof (MON _ _ H). pose proof (POS t). pose proof (POS t'). pose proof (POS d). set (a := tval (coord d)) in *. set (b := tval (coord t)) in *. set (c := tval (coord t')) in *. clearbody a b c.
      assert (B : b <> 0%Qc) by (intros ->; qlra). assert (C : c <> 0%Qc) by (intros ->; qlra). pose proof (DIV a b B) as D1. pose proof (DIV a c C) as D2.
      set (x := (a / b)%Qc) in *. set (y := (a / c)%Qc) in *. clearbody x y. destruct (CASE y x) as [G|G]; [exact G|]. exfalso.
      assert (P : (0 < x)%Qc). { destruct (CASE x 0%Qc); [|assumption]. exfalso. assert (x * b <= 0)%Qc by (clear - H4 H1; qnra). rewrite D1 in H5. clear - H5 H3. qlra. }
      assert (x * b < y * c)%Qc. { clear - G P H0 H1. assert (x * b <= x * c)%Qc by qnra. assert (x * c < y * c)%Qc by qnra. qlra. } rewrite D1, D2 in H4. clear - H4. qlra.
  - intros t d [H|H]; unfold relative_humidity; rewrite H; cbn [andb]; rewrite ?andb_false_r; reflexivity.
Qed.
